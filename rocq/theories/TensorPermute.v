(** Proofs about permute and transpose. *)
From Verif Require Import Base DTypeModel ParamModel ParamSpec ParamProofs ParamMore TensorModel TensorSpec TensorProofs TensorViews TensorSplit TensorConcat.
Local Open Scope Z_scope.

(* ---------------- permutations of coordinates ---------------- *)
Lemma perm_facts n axis : is_permutation n axis ->
  length axis = n /\ NoDup axis /\ (forall a, In a axis <-> 0 <= a < Z.of_nat n).
Proof.
  intro H. unfold is_permutation in H. split; [|split].
  - rewrite (Permutation_length H), map_length, seq_length. reflexivity.
  - eapply Permutation_NoDup; [symmetry; exact H|]. apply FinFun.Injective_map_NoDup; [|apply seq_NoDup].
    intros a b E. lia.
  - intro a. split; intro Ha.
    + apply (Permutation_in _ H) in Ha. apply in_map_iff in Ha as (k & <- & Hk). apply in_seq in Hk. lia.
    + apply (Permutation_in _ (Permutation_sym H)). apply in_map_iff. exists (Z.to_nat a). split; [lia|]. apply in_seq. lia.
Qed.
Lemma scatter_length perm : forall coord ic, length (scatter perm coord ic) = length ic.
Proof.
  induction perm as [|p ps IH]; intros [|c cs] ic; cbn [scatter]; auto. rewrite IH. apply length_upd_nth.
Qed.
Lemma scatter_out perm : forall coord ic j, Forall (fun p => 0 <= p) perm -> ~ In (Z.of_nat j) perm ->
  nth j (scatter perm coord ic) 0 = nth j ic 0.
Proof.
  induction perm as [|p ps IH]; intros [|c cs] ic j Hp Hj; cbn [scatter]; auto.
  inversion Hp as [|? ? H1 H2]; subst. rewrite IH; [|auto|intro H; apply Hj; right; auto].
  rewrite nth_upd_nth. destruct (Nat.eqb_spec (Z.to_nat p) j) as [E|]; auto.
  exfalso. apply Hj. left. lia.
Qed.
Lemma scatter_at perm : forall coord ic k, Forall (fun p => 0 <= p < Z.of_nat (length ic)) perm -> NoDup perm ->
  length coord = length perm -> (k < length perm)%nat ->
  nth (Z.to_nat (nth k perm 0)) (scatter perm coord ic) 0 = nth k coord 0.
Proof.
  induction perm as [|p ps IH]; intros [|c cs] ic k Hp Hn Hl Hk; cbn [length] in *; try lia.
  inversion Hp as [|? ? H1 H2]; subst. inversion Hn as [|? ? H3 H4]; subst. cbn [scatter].
  destruct k as [|k]; cbn [nth].
  - rewrite scatter_out.
    + rewrite nth_upd_nth, Nat.eqb_refl. replace (Z.to_nat p <? length ic)%nat with true by lia. reflexivity.
    + eapply Forall_impl; [|exact H2]. cbn beta. lia.
    + rewrite Z2Nat.id by lia. auto.
  - apply IH; auto; try lia. rewrite length_upd_nth. auto.
Qed.

Section Perm.
Variables (n : nat) (perm : list Z).
Hypothesis Hperm : is_permutation n perm.

Lemma perm_len : length perm = n.
Proof. apply perm_facts; auto. Qed.
Lemma perm_bound k : (k < n)%nat -> 0 <= nth k perm 0 < Z.of_nat n.
Proof. intro H. destruct (perm_facts n perm Hperm) as (H1 & H2 & H3). apply H3. apply nth_In. lia. Qed.
Lemma perm_all (m : nat) : m = n -> Forall (fun p => 0 <= p < Z.of_nat m) perm.
Proof. intros ->. apply Forall_forall. intros p Hp. destruct (perm_facts n perm Hperm) as (_ & _ & H). apply H; auto. Qed.
Lemma perm_onto j : (j < n)%nat -> exists k, (k < n)%nat /\ nth k perm 0 = Z.of_nat j.
Proof.
  intro H. destruct (perm_facts n perm Hperm) as (H1 & H2 & H3).
  assert (Hi : In (Z.of_nat j) perm) by (apply H3; lia).
  apply (In_nth _ _ 0) in Hi as (k & Hk & E). exists k. split; [lia|auto].
Qed.
Lemma rearrange_length idx : length (rearrange perm idx) = n.
Proof. unfold rearrange. rewrite map_length. apply perm_len. Qed.
Lemma rearrange_nth idx k : (k < n)%nat -> nth k (rearrange perm idx) 0 = nth (Z.to_nat (nth k perm 0)) idx 0.
Proof.
  intro H. unfold rearrange. rewrite (nth_indep _ 0 ((fun a => nth (Z.to_nat a) idx 0) 0)) by (rewrite map_length, perm_len; auto).
  rewrite (map_nth (fun a => nth (Z.to_nat a) idx 0)). reflexivity.
Qed.
Lemma rearrange_scatter oc ic : length oc = n -> length ic = n -> rearrange perm (scatter perm oc ic) = oc.
Proof.
  intros H1 H2. apply (nth_ext _ _ 0 0); [rewrite rearrange_length; auto|].
  intros k Hk. rewrite rearrange_length in Hk. rewrite rearrange_nth by auto.
  apply scatter_at; [apply perm_all; auto|apply (perm_facts n perm Hperm)|rewrite perm_len; auto|rewrite perm_len; auto].
Qed.
Lemma scatter_rearrange idx ic : length idx = n -> length ic = n -> scatter perm (rearrange perm idx) ic = idx.
Proof.
  intros H1 H2. apply (nth_ext _ _ 0 0); [rewrite scatter_length; congruence|].
  intros j Hj. rewrite scatter_length in Hj. destruct (perm_onto j ltac:(lia)) as (k & Hk & E).
  assert (S := scatter_at perm (rearrange perm idx) ic k (perm_all _ H2) ltac:(apply (perm_facts n perm Hperm))
     ltac:(rewrite rearrange_length, perm_len; auto) ltac:(rewrite perm_len; auto)).
  rewrite rearrange_nth, E, Nat2Z.id in S by auto. exact S.
Qed.
Lemma in_shape_rearrange shape idx : length shape = n -> length idx = n ->
  in_shape (rearrange perm shape) (rearrange perm idx) <-> in_shape shape idx.
Proof.
  intros H1 H2. split; intro H.
  - apply in_shape_of_nth; [congruence|]. intros j Hj. destruct (perm_onto j ltac:(lia)) as (k & Hk & E).
    assert (S := in_shape_nth _ _ k H ltac:(rewrite rearrange_length; auto)).
    rewrite !rearrange_nth, E, Nat2Z.id in S by auto. exact S.
  - apply in_shape_of_nth; [rewrite !rearrange_length; auto|]. intros k Hk. rewrite rearrange_length in Hk.
    rewrite !rearrange_nth by auto. apply in_shape_nth; auto. assert (B := perm_bound k Hk). lia.
Qed.
Lemma dot_maps (f g : Z -> Z) l : dot (map f l) (map g l) = fold_right Z.add 0 (map (fun a => f a * g a) l).
Proof. induction l as [|a l IH]; cbn [map dot fold_right]; auto. rewrite IH. reflexivity. Qed.
Lemma sum_perm l l' : Permutation l l' -> fold_right Z.add 0 l = fold_right Z.add 0 l'.
Proof. induction 1; cbn [fold_right]; lia. Qed.
Lemma map_nth_ids l : map (fun a => nth (Z.to_nat a) l 0) (map Z.of_nat (seq 0 (length l))) = l.
Proof.
  rewrite map_map. rewrite (map_ext _ (fun k => nth k l 0)) by (intro; rewrite Nat2Z.id; reflexivity).
  apply (nth_ext _ _ 0 0); [rewrite map_length, seq_length; auto|]. intros k Hk. rewrite map_length, seq_length in Hk.
  rewrite (nth_indep _ 0 ((fun k => nth k l 0) 0%nat)) by (rewrite map_length, seq_length; auto).
  rewrite (map_nth (fun k => nth k l 0)). rewrite seq_nth by auto. reflexivity.
Qed.
Lemma dot_rearrange idx st : length idx = n -> length st = n ->
  dot (rearrange perm idx) (rearrange perm st) = dot idx st.
Proof.
  intros H1 H2. unfold rearrange. rewrite dot_maps.
  rewrite (sum_perm _ _ (Permutation_map _ Hperm)). rewrite <- dot_maps.
  f_equal; [rewrite <- H1|rewrite <- H2]; apply map_nth_ids.
Qed.
Lemma product_perm l l' : Permutation l l' -> product l = product l'.
Proof. unfold product. induction 1; cbn [fold_right]; nia. Qed.
Lemma product_rearrange shape : length shape = n -> product (rearrange perm shape) = product shape.
Proof.
  intro H. unfold rearrange. rewrite (product_perm _ _ (Permutation_map _ Hperm)). rewrite <- H, map_nth_ids. reflexivity.
Qed.
Lemma rearrange_nonneg shape : Forall (fun x => 0 <= x) shape -> Forall (fun x => 0 <= x) (rearrange perm shape).
Proof.
  intro H. unfold rearrange. apply Forall_forall. intros x Hx. apply in_map_iff in Hx as (a & <- & _).
  destruct (Nat.lt_ge_cases (Z.to_nat a) (length shape)) as [Hl|Hl].
  - rewrite Forall_forall in H. apply H. apply nth_In. auto.
  - rewrite nth_overflow by lia. lia.
Qed.
Lemma axis_ok rank : rank = Z.of_nat n -> axis_in_range rank perm = true.
Proof.
  intros ->. unfold axis_in_range, zlen. rewrite perm_len, Z.eqb_refl. cbn [andb].
  apply forallb_forall. intros a Ha. apply (perm_facts n perm Hperm) in Ha. lia.
Qed.
End Perm.

(** What the output of permuting [t] must hold at each position. *)
Definition perm_target {A} (t : tns A) (perm : list Z) : Z -> option A := fun pos =>
  elem t (scatter perm (unravel (rearrange perm (x_shape t)) pos) (map (fun _ => 0) perm)).

Lemma permute_generic_ok {A} (t : tns A) perm (o : buf A) :
  tensor_ok t -> contiguous t -> is_permutation (length (x_shape t)) perm ->
  b_len o = product (x_shape t) ->
  exists o', permute_generic (x_buf t) (x_offset t) (x_shape t) perm o = ROk o' /\
    good (perm_target t perm) (fun p => 0 <= p < product (x_shape t)) o o'.
Proof.
  intros Hok Hc Hp Hl. set (n := length (x_shape t)) in *. set (out := rearrange perm (x_shape t)).
  assert (Hpr : product out = product (x_shape t)) by (apply (product_rearrange n); auto).
  assert (Hon : Forall (fun x => 0 <= x) out) by (apply rearrange_nonneg, Hok).
  unfold permute_generic. change (permuted_shape (x_shape t) perm) with out. rewrite numel_product.
  assert (Hpn : 0 <= product (x_shape t)) by (apply product_nonneg, Hok).
  destruct (zloop_inv (fun k (s : buf A * list Z) => length (snd s) = n /\
     good (perm_target t perm) (fun p => 0 <= p < k) o (fst s)) (product (x_shape t))
    (fun i s =>
    let out_coord := unravel out i in
    let in_coord := scatter perm out_coord (snd s) in
    do o <- copy1 (x_buf t) (x_offset t + dot in_coord (compute_strides (x_shape t))) i (fst s);
    ROk (o, in_coord)) (o, map (fun _ => 0) perm)) as ([o' ic'] & E' & [_ G']).
  - exact Hpn.
  - cbn [fst snd]. split; [rewrite map_length; apply (perm_len n); auto|].
    eapply good_weaken; [|apply good_refl]. cbn beta. lia.
  - intros i [b ic] Hi [Hic HG]. cbn [fst snd] in *. cbv zeta.
    destruct (unravel_spec out i Hon ltac:(lia)) as [U1 U2].
    set (oc := unravel out i) in *. assert (Loc := in_shape_length _ _ U1).
    unfold out in Loc. rewrite (rearrange_length n) in Loc by auto.
    assert (Hidx : in_shape (x_shape t) (scatter perm oc ic)).
    { apply (in_shape_rearrange n perm Hp); [auto|rewrite scatter_length; auto|].
      rewrite (rearrange_scatter n) by auto. exact U1. }
    assert (Hsame : scatter perm oc (map (fun _ => 0) perm) = scatter perm oc ic).
    { rewrite <- (rearrange_scatter n perm Hp oc ic) at 1 by auto.
      apply (scatter_rearrange n); auto; [rewrite scatter_length; auto|rewrite map_length; apply (perm_len n); auto]. }
    assert (Ha : address (x_view t) (scatter perm oc ic) = x_offset t + dot (scatter perm oc ic) (compute_strides (x_shape t))).
    { rewrite contiguous_address by (auto; rewrite scatter_length; auto).
      unfold compute_strides. rewrite dot_ravel by (rewrite scatter_length; auto). reflexivity. }
    assert (O := ok_inside _ Hok _ Hidx). rewrite Ha in O.
    destruct (good_copy1 (perm_target t perm) (x_buf t) (x_offset t + dot (scatter perm oc ic) (compute_strides (x_shape t))) i b)
      as (b' & Eb & Gb).
    + exact O.
    + rewrite (g_len _ _ _ _ HG). lia.
    + unfold perm_target. fold out oc. rewrite Hsame. unfold elem. rewrite Ha. reflexivity.
    + rewrite Eb. cbn [rbind]. eexists. split; [reflexivity|]. cbn [fst snd].
      split; [rewrite scatter_length; auto|]. eapply good_weaken; [|eapply good_trans; [exact HG|exact Gb]]. cbn beta. lia.
  - cbv zeta in E' |- *. rewrite E'. cbn [rbind fst]. exists o'. split; [reflexivity|exact G'].
Qed.

Lemma perm_target_at {A} (t : tns A) perm idx :
  is_permutation (length (x_shape t)) perm -> in_shape (x_shape t) idx ->
  in_shape (rearrange perm (x_shape t)) (rearrange perm idx) /\
  perm_target t perm (ravel (rearrange perm (x_shape t)) (rearrange perm idx)) = elem t idx.
Proof.
  intros Hp Hi. assert (Li := in_shape_length _ _ Hi).
  assert (Hin : in_shape (rearrange perm (x_shape t)) (rearrange perm idx))
    by (apply (in_shape_rearrange (length (x_shape t))); auto).
  split; auto. unfold perm_target. rewrite unravel_ravel by auto.
  rewrite (scatter_rearrange (length (x_shape t))); auto. rewrite map_length. apply (perm_len (length (x_shape t))); auto.
Qed.

Theorem permute_correct {A} (t : tns A) dt axis :
  tensor_ok t -> contiguous t -> is_permutation (length (x_shape t)) axis -> permute_supported dt = true ->
  exists out, permute_op dt t axis = ROk out /\ x_shape out = rearrange axis (x_shape t) /\
    tensor_ok out /\ owns_storage out /\
    forall idx, in_shape (x_shape t) idx ->
      in_shape (x_shape out) (rearrange axis idx) /\ elem out (rearrange axis idx) = elem t idx.
Proof.
  intros Hok Hc Hp Hdt. unfold permute_op. rewrite (axis_ok (length (x_shape t))) by auto. cbn [negb].
  change (permuted_shape (x_shape t) axis) with (rearrange axis (x_shape t)).
  assert (Lr : length (rearrange axis (x_shape t)) = length (x_shape t)) by (apply rearrange_length; auto).
  assert (Hr : (1 <= length (rearrange axis (x_shape t)) <= 16)%nat) by (rewrite Lr; apply Hok).
  rewrite fresh_ok by auto. cbn [rbind x_buf x_view]. rewrite Hdt.
  assert (Hpr : product (rearrange axis (x_shape t)) = product (x_shape t)) by (apply (product_rearrange (length (x_shape t))); auto).
  destruct (permute_generic_ok t axis (mkBuf (product (rearrange axis (x_shape t))) (fun _ => None)) Hok Hc Hp) as (o' & E & G).
  { cbn [b_len]. auto. }
  rewrite E. cbn [rbind]. eexists. split; [reflexivity|].
  destruct (owner_ok (rearrange axis (x_shape t)) o' Hr) as [O1 O2].
  { apply rearrange_nonneg, Hok. }
  { rewrite (g_len _ _ _ _ G). reflexivity. }
  split; [reflexivity|]. split; [exact O1|]. split; [exact O2|].
  intros idx Hi. destruct (perm_target_at t axis idx Hp Hi) as [I1 I2]. split; [exact I1|].
  rewrite owner_elem by (apply in_shape_length; auto).
  rewrite (g_set _ _ _ _ G); [exact I2|]. rewrite <- Hpr. apply ravel_bounds. auto.
Qed.

(* ---------------- vector copies ---------------- *)
Lemma good_chunked {A} (G : Z -> option A) n X src dst D b :
  0 < n -> 0 <= D ->
  (forall k, 0 <= k < D -> 0 <= src + k < b_len X /\ 0 <= dst + k < b_len b /\ b_at X (src + k) = G (dst + k)) ->
  exists b', (do Y <- zloop (D / n) (fun k Y => memcpy X (src + n * k) (dst + n * k) n Y) b;
              let d := n * (D / n) in
              zloop (D - d) (fun k Y => copy1 X (src + (d + k)) (dst + (d + k)) Y) Y) = ROk b' /\
    good G (fun p => dst <= p < dst + D) b b'.
Proof.
  intros Hn HD H. assert (Hq : 0 <= D / n) by (apply Z.div_pos; lia).
  assert (Hq2 : n * (D / n) <= D) by (apply Z.mul_div_le; lia).
  destruct (good_loop G (D / n) (fun k p => dst + n * k <= p < dst + n * k + n)
    (fun k Y => memcpy X (src + n * k) (dst + n * k) n Y) b (b_len b) eq_refl) as (b1 & E1 & G1).
  { intros k b0 Hk Hb0. assert (Hkn : n * k + n <= D) by nia. apply good_memcpy.
    - intros _. destruct (H (n * k) ltac:(nia)) as (A1 & _ & _). destruct (H (n * k + n - 1) ltac:(nia)) as (A2 & _ & _). lia.
    - intros _. destruct (H (n * k) ltac:(nia)) as (_ & A1 & _). destruct (H (n * k + n - 1) ltac:(nia)) as (_ & A2 & _). lia.
    - intros m Hm. destruct (H (n * k + m) ltac:(nia)) as (_ & _ & A3). rewrite <- !Z.add_assoc. exact A3. }
  rewrite E1. cbn [rbind]. cbv zeta. set (d := n * (D / n)) in *.
  destruct (good_loop G (D - d) (fun k => eq (dst + (d + k)))
    (fun k Y => copy1 X (src + (d + k)) (dst + (d + k)) Y) b1 (b_len b1) eq_refl) as (b2 & E2 & G2).
  { intros k b0 Hk Hb0. destruct (H (d + k) ltac:(lia)) as (A1 & A2 & A3).
    apply good_copy1; auto. rewrite Hb0, (g_len _ _ _ _ G1). auto. }
  exists b2. split; [exact E2|]. eapply good_weaken; [|eapply good_trans; [exact G1|exact G2]]. cbn beta.
  intros p Hpp. destruct (Z_lt_le_dec (p - dst) d) as [Hlt|Hge].
  - left. exists ((p - dst) / n). assert (Hm := Z.mod_pos_bound (p - dst) n Hn). assert (Hdm := Z_div_mod_eq_full (p - dst) n).
    split; [split; [apply Z.div_pos; lia|apply Z.div_lt_upper_bound; lia]|lia].
  - right. exists (p - dst - d). lia.
Qed.

Lemma default_strides_last s : s <> [] -> last (default_strides s) 0 = 1.
Proof.
  induction s as [|d ds IH]; [contradiction|]. intros _. rewrite default_strides_cons. destruct ds as [|d2 ds]; [reflexivity|].
  rewrite default_strides_cons in *. exact (IH ltac:(discriminate)).
Qed.
Lemma last_nth_ {X} (l : list X) x : last l x = nth (length l - 1) l x.
Proof.
  induction l as [|a l IH]; [reflexivity|]. destruct l as [|b l]; [reflexivity|].
  change (last (b :: l) x = nth (length (a :: b :: l) - 1) (a :: b :: l) x). rewrite IH.
  replace (length (a :: b :: l) - 1)%nat with (S (length (b :: l) - 1)) by (cbn [length]; lia). reflexivity.
Qed.
Lemma removelast_map {X Y} (f : X -> Y) l : map f (removelast l) = removelast (map f l).
Proof. induction l as [|a l IH]; [reflexivity|]. destruct l; [reflexivity|]. cbn [removelast map] in *. rewrite IH. reflexivity. Qed.
Lemma removelast_length_ {X} (l : list X) : length (removelast l) = (length l - 1)%nat.
Proof. induction l as [|a l IH]; [reflexivity|]. destruct l; [reflexivity|]. cbn [removelast length] in *. lia. Qed.
Lemma dot_last oc st : st <> [] -> length oc = length st ->
  dot oc st = dot (removelast oc) (removelast st) + last oc 0 * last st 0.
Proof.
  intros Hne Hl. assert (Hno : oc <> []) by (destruct oc, st; cbn in Hl; try lia; congruence).
  rewrite (app_removelast_last 0 Hno) at 1. rewrite (app_removelast_last 0 Hne) at 1.
  rewrite dot_app by (rewrite !removelast_length_; lia). cbn [dot]. lia.
Qed.

Lemma permute_fp32_ok {A} (t : tns A) perm (o : buf A) :
  tensor_ok t -> contiguous t -> is_permutation (length (x_shape t)) perm ->
  b_len o = product (x_shape t) ->
  exists o', permute_fp32 (x_buf t) (x_offset t) (x_shape t) perm o = ROk o' /\
    good (perm_target t perm) (fun p => 0 <= p < product (x_shape t)) o o'.
Proof.
  intros Hok Hc Hp Hl. unfold permute_fp32.
  change (permuted_shape (x_shape t) perm) with (rearrange perm (x_shape t)).
  set (out := rearrange perm (x_shape t)). set (inner := last out 0).
  destruct ((last perm 0 =? zlen perm - 1) && (4 <=? inner)) eqn:Eb; [|apply permute_generic_ok; auto].
  apply andb_true_iff in Eb as [Eb1 Eb2]. apply Z.eqb_eq in Eb1.
  set (n := length (x_shape t)) in *. assert (Lp : length perm = n) by (apply perm_len; auto).
  assert (Lo : length out = n) by (apply rearrange_length; auto).
  assert (Hn1 : (1 <= n)%nat) by apply Hok.
  assert (Hno : out <> []) by (destruct out; cbn in Lo; [lia|discriminate]).
  assert (Hpr : product out = product (x_shape t)) by (apply (product_rearrange n); auto).
  assert (Hon : Forall (fun x => 0 <= x) out) by (apply rearrange_nonneg, Hok).
  set (s := removelast out). assert (Eo : out = s ++ [inner]) by (apply app_removelast_last; auto).
  assert (Hsn : Forall (fun x => 0 <= x) s) by (rewrite Eo in Hon; apply Forall_app in Hon; tauto).
  assert (Hps : product out = product s * inner).
  { rewrite Eo, product_app, product_cons. unfold product at 2. cbn [fold_right]. lia. }
  rewrite numel_product. rewrite <- Hpr, Hps, Z.div_mul by lia.
  set (ist := compute_strides (x_shape t)). set (ost := compute_strides out).
  assert (Li : length ist = n) by apply default_strides_length.
  assert (Lost : length ost = n) by (unfold ost, compute_strides; rewrite default_strides_length; auto).
  set (IO := fun o => dot (unravel s o) (map (fun p => nth (Z.to_nat p) ist 0) (removelast perm))).
  set (OO := fun o => dot (unravel s o) (removelast ost)).
  (* one output element *)
  assert (Hel : forall oi j, 0 <= oi < product s -> 0 <= j < inner ->
    let idx := scatter perm (unravel s oi ++ [j]) (map (fun _ => 0) perm) in
    in_shape (x_shape t) idx /\ address (x_view t) idx = x_offset t + IO oi + j /\
    ravel out (unravel s oi ++ [j]) = OO oi + j /\ in_shape out (unravel s oi ++ [j]) /\ OO oi = oi * inner).
  { intros oi j Ho Hj. destruct (unravel_spec s oi Hsn Ho) as [U1 U2]. assert (Lc := in_shape_length _ _ U1).
    cbv zeta. set (oc := unravel s oi ++ [j]).
    assert (Hin : in_shape out oc).
    { rewrite Eo. apply in_shape_app; [auto|]. split; auto. apply in_shape_cons. split; [auto|constructor]. }
    assert (Loc : length oc = n) by (rewrite (in_shape_length _ _ Hin); auto).
    assert (Hz : length (map (fun _ : Z => 0) perm) = n) by (rewrite map_length; auto).
    set (idx := scatter perm oc (map (fun _ => 0) perm)).
    assert (Lidx : length idx = n) by (unfold idx; rewrite scatter_length; auto).
    assert (Hre : rearrange perm idx = oc) by (apply (rearrange_scatter n); auto).
    assert (Hidx : in_shape (x_shape t) idx).
    { apply (in_shape_rearrange n perm Hp); auto. rewrite Hre. exact Hin. }
    assert (Hr : removelast oc = unravel s oi) by (unfold oc; rewrite removelast_app by discriminate; cbn [removelast]; apply app_nil_r).
    assert (Hla : last oc 0 = j) by (unfold oc; apply last_last).
    split; [auto|]. split; [|split; [|split; [auto|]]].
    - rewrite contiguous_address by auto. rewrite <- dot_ravel by auto. fold ist. change (default_strides (x_shape t)) with ist.
      rewrite <- (dot_rearrange n perm Hp idx ist) by auto. rewrite Hre.
      rewrite dot_last.
      + rewrite Hr, Hla. unfold rearrange at 1. rewrite <- removelast_map. fold (IO oi).
        replace (last (rearrange perm ist) 0) with 1; [lia|].
        rewrite last_nth_, (rearrange_length n) by auto. rewrite (rearrange_nth n) by (auto; lia).
        rewrite last_nth_, Lp in Eb1. rewrite Eb1. unfold zlen. rewrite Lp.
        replace (Z.to_nat (Z.of_nat n - 1)) with (length ist - 1)%nat by lia. rewrite <- last_nth_.
        symmetry. apply default_strides_last. intro E0. unfold n in Hn1. rewrite E0 in Hn1. cbn in Hn1. lia.
      + intro E0. apply (f_equal (@length Z)) in E0. rewrite (rearrange_length n) in E0 by auto. cbn in E0. lia.
      + rewrite (rearrange_length n) by auto. auto.
    - rewrite <- dot_ravel by congruence. change (default_strides out) with ost.
      rewrite dot_last by (try congruence; intro E0; rewrite E0 in Lost; cbn in Lost; lia).
      rewrite Hr, Hla. replace (last ost 0) with 1 by (symmetry; apply default_strides_last; auto). unfold OO. lia.
    - assert (E2 : ravel out oc = OO oi + j).
      { rewrite <- dot_ravel by congruence. change (default_strides out) with ost.
        rewrite dot_last by (try congruence; intro E0; rewrite E0 in Lost; cbn in Lost; lia).
        rewrite Hr, Hla. replace (last ost 0) with 1 by (symmetry; apply default_strides_last; auto). unfold OO. lia. }
      assert (E3 : ravel out oc = oi * inner + j).
      { rewrite Eo. unfold oc. rewrite ravel_app by auto. rewrite U2. cbn [ravel]. unfold product. cbn [fold_right]. lia. }
      lia. }
  destruct (good_loop (perm_target t perm) (product s) (fun oi p => oi * inner <= p < oi * inner + inner)
    (fun oi out0 =>
      do out1 <- zloop (inner / 4) (fun k out => memcpy (x_buf t) (x_offset t + IO oi + 4 * k) (OO oi + 4 * k) 4 out) out0;
      let j := 4 * (inner / 4) in
      zloop (inner - j) (fun k out => copy1 (x_buf t) (x_offset t + IO oi + (j + k)) (OO oi + (j + k)) out) out1) o (b_len o) eq_refl)
    as (o' & E' & G').
  { intros oi b Ho Hb. destruct (good_chunked (perm_target t perm) 4 (x_buf t) (x_offset t + IO oi) (OO oi) inner b) as (b' & E1 & G1).
    - lia.
    - lia.
    - intros k Hk. destruct (Hel oi k Ho Hk) as (I1 & I2 & I3 & I4 & I5). cbv zeta in *.
      assert (O := ok_inside _ Hok _ I1). rewrite I2 in O. split; [exact O|].
      assert (B := ravel_bounds _ _ I4). rewrite I3 in B. split; [rewrite Hb, Hl, <- Hpr; lia|].
      unfold perm_target. fold out. rewrite <- I3. rewrite unravel_ravel by auto. unfold elem. rewrite I2. reflexivity.
    - exists b'. split; [exact E1|]. eapply good_weaken; [|exact G1]. cbn beta.
      destruct (Hel oi 0 Ho ltac:(lia)) as (_ & _ & _ & _ & I5). rewrite I5. auto. }
  exists o'. split; [exact E'|]. eapply good_weaken; [|exact G']. cbn beta. intros p Hpp.
  exists (p / inner). assert (Hm := Z.mod_pos_bound p inner ltac:(lia)). assert (Hdm := Z_div_mod_eq_full p inner).
  split; [split; [apply Z.div_pos; lia|apply Z.div_lt_upper_bound; lia]|lia].
Qed.

(* ---------------- matrix transpose ---------------- *)
Lemma loadu4 {A} (b : buf A) i : 0 <= i -> i + 4 <= b_len b ->
  loadu 4 b i = ROk [b_at b i; b_at b (i + 1); b_at b (i + 2); b_at b (i + 3)].
Proof.
  intros H1 H2. unfold loadu, load.
  change (Z.of_nat 0) with 0. change (Z.of_nat 1) with 1. change (Z.of_nat 2) with 2. change (Z.of_nat 3) with 3.
  rewrite Z.add_0_r. cbn [rbind].
  replace ((0 <=? i) && (i <? b_len b)) with true by lia. cbn [rbind].
  replace ((0 <=? i + 1) && (i + 1 <? b_len b)) with true by lia. cbn [rbind].
  replace ((0 <=? i + 2) && (i + 2 <? b_len b)) with true by lia. cbn [rbind].
  replace ((0 <=? i + 3) && (i + 3 <? b_len b)) with true by lia. reflexivity.
Qed.
Lemma loadu2 {A} (b : buf A) i : 0 <= i -> i + 2 <= b_len b -> loadu 2 b i = ROk [b_at b i; b_at b (i + 1)].
Proof.
  intros H1 H2. unfold loadu, load.
  change (Z.of_nat 0) with 0. change (Z.of_nat 1) with 1. rewrite Z.add_0_r. cbn [rbind].
  replace ((0 <=? i) && (i <? b_len b)) with true by lia. cbn [rbind].
  replace ((0 <=? i + 1) && (i + 1 <? b_len b)) with true by lia. reflexivity.
Qed.
Lemma good_storeu {A} (G : Z -> option A) r : forall b i,
  0 <= i -> i + zlen r <= b_len b -> (forall k, (k < length r)%nat -> nth k r None = G (i + Z.of_nat k)) ->
  exists b', storeu b i r = ROk b' /\ good G (fun p => i <= p < i + zlen r) b b'.
Proof.
  induction r as [|x r IH]; intros b i H1 H2 H3.
  - exists b. split; [reflexivity|]. eapply good_weaken; [|apply good_refl]. unfold zlen; cbn [length]. lia.
  - rewrite zlen_cons in H2. assert (Hz := zlen_nonneg r).
    destruct (good_store G b i x ltac:(lia)) as (b1 & E1 & G1).
    { assert (H := H3 0%nat ltac:(cbn [length]; lia)). cbn [nth] in H. rewrite H. f_equal. lia. }
    destruct (IH b1 (i + 1) ltac:(lia)) as (b2 & E2 & G2).
    { rewrite (g_len _ _ _ _ G1). lia. }
    { intros k Hk. assert (H := H3 (S k) ltac:(cbn [length]; lia)). cbn [nth] in H. rewrite H. f_equal. lia. }
    exists b2. cbn [storeu]. rewrite E1. cbn [rbind]. split; [exact E2|].
    eapply good_weaken; [|eapply good_trans; [exact G1|exact G2]]. rewrite zlen_cons. cbn beta. lia.
Qed.

Section Matrix.
Context {A : Type}.
Variables (G : Z -> option A) (X : buf A) (x H W y L : Z).
Hypothesis HH : 0 <= H.
Hypothesis HW : 0 <= W.
(** Reading element (i,j) of the H x W matrix at [x] yields what is wanted at
    element (j,i) of the W x H matrix at [y]; all positions are inside. *)
Hypothesis Hx : forall i j, 0 <= i < H -> 0 <= j < W ->
  0 <= x + i * W + j < b_len X /\ 0 <= y + j * H + i < L /\ b_at X (x + i * W + j) = G (y + j * H + i).

Lemma block4_ok i j (Y : buf A) : 0 <= i -> i + 4 <= H -> 0 <= j -> j + 4 <= W -> b_len Y = L ->
  exists Y', block4 X x H W i j y Y = ROk Y' /\
    good G (fun p => exists a b, i <= a < i + 4 /\ j <= b < j + 4 /\ p = y + b * H + a) Y Y'.
Proof.
  intros Hi1 Hi2 Hj1 Hj2 HL.
  assert (R : forall a b, i <= a < i + 4 -> j <= b < j + 4 ->
     0 <= x + a * W + b < b_len X /\ 0 <= y + b * H + a < L /\ b_at X (x + a * W + b) = G (y + b * H + a)).
  { intros a b Ha Hb. apply Hx; lia. }
  assert (Row : forall a, i <= a < i + 4 -> loadu 4 X (x + a * W + j) =
     ROk [G (y + j * H + a); G (y + (j + 1) * H + a); G (y + (j + 2) * H + a); G (y + (j + 3) * H + a)]).
  { intros a Ha. destruct (R a j Ha ltac:(lia)) as (A1 & _ & A2). destruct (R a (j + 1) Ha ltac:(lia)) as (_ & _ & B2).
    destruct (R a (j + 2) Ha ltac:(lia)) as (_ & _ & C2). destruct (R a (j + 3) Ha ltac:(lia)) as (D1 & _ & D2).
    rewrite loadu4 by lia. rewrite !Z.add_assoc in *. rewrite A2, B2, C2, D2. reflexivity. }
  unfold block4. rewrite (Row i ltac:(lia)), (Row (i + 1) ltac:(lia)), (Row (i + 2) ltac:(lia)), (Row (i + 3) ltac:(lia)).
  cbn [rbind]. unfold movelh_ps, movehl_ps, unpacklo_ps, unpackhi_ps, lane. cbn [nth].
  assert (Col : forall b Y0, j <= b < j + 4 -> b_len Y0 = L ->
    exists Y1, storeu Y0 (y + b * H + i) [G (y + b * H + i); G (y + b * H + (i + 1)); G (y + b * H + (i + 2)); G (y + b * H + (i + 3))] = ROk Y1 /\
      good G (fun p => exists a, i <= a < i + 4 /\ p = y + b * H + a) Y0 Y1).
  { intros b Y0 Hb HY0.
    destruct (good_storeu G [G (y + b * H + i); G (y + b * H + (i + 1)); G (y + b * H + (i + 2)); G (y + b * H + (i + 3))] Y0 (y + b * H + i)) as (Y1 & E1 & G1).
    - destruct (R i b ltac:(lia) Hb) as (_ & B1 & _). lia.
    - destruct (R (i + 3) b ltac:(lia) Hb) as (_ & B1 & _). unfold zlen. cbn [length]. lia.
    - intros k Hk. cbn [length] in Hk. do 4 (destruct k as [|k]; [cbn [nth]; f_equal; lia|]). lia.
    - exists Y1. split; [exact E1|]. eapply good_weaken; [|exact G1]. unfold zlen. cbn [length].
      intros p (a & Ha & ->). lia. }
  destruct (Col j Y ltac:(lia) HL) as (Y1 & E1 & G1). rewrite E1. cbn [rbind].
  destruct (Col (j + 1) Y1 ltac:(lia)) as (Y2 & E2 & G2). { rewrite (g_len _ _ _ _ G1); auto. } rewrite E2. cbn [rbind].
  destruct (Col (j + 2) Y2 ltac:(lia)) as (Y3 & E3 & G3). { rewrite (g_len _ _ _ _ G2), (g_len _ _ _ _ G1); auto. } rewrite E3. cbn [rbind].
  destruct (Col (j + 3) Y3 ltac:(lia)) as (Y4 & E4 & G4). { rewrite (g_len _ _ _ _ G3), (g_len _ _ _ _ G2), (g_len _ _ _ _ G1); auto. } rewrite E4.
  exists Y4. split; [reflexivity|].
  eapply good_weaken; [|eapply good_trans; [exact G1|eapply good_trans; [exact G2|eapply good_trans; [exact G3|exact G4]]]].
  cbn beta. intros p (a & b & Ha & Hb & ->).
  assert (Hb4 : b = j \/ b = j + 1 \/ b = j + 2 \/ b = j + 3) by lia.
  destruct Hb4 as [-> | [-> | [-> | ->]]]; [left|right; left|right; right; left|right; right; right]; exists a; auto.
Qed.

Lemma block2_ok i j (Y : buf A) : 0 <= i -> i + 2 <= H -> 0 <= j -> j + 2 <= W -> b_len Y = L ->
  exists Y', block2 X x H W i j y Y = ROk Y' /\
    good G (fun p => exists a b, i <= a < i + 2 /\ j <= b < j + 2 /\ p = y + b * H + a) Y Y'.
Proof.
  intros Hi1 Hi2 Hj1 Hj2 HL.
  assert (R : forall a b, i <= a < i + 2 -> j <= b < j + 2 ->
     0 <= x + a * W + b < b_len X /\ 0 <= y + b * H + a < L /\ b_at X (x + a * W + b) = G (y + b * H + a)).
  { intros a b Ha Hb. apply Hx; lia. }
  assert (Row : forall a, i <= a < i + 2 -> loadu 2 X (x + a * W + j) = ROk [G (y + j * H + a); G (y + (j + 1) * H + a)]).
  { intros a Ha. destruct (R a j Ha ltac:(lia)) as (A1 & _ & A2). destruct (R a (j + 1) Ha ltac:(lia)) as (D1 & _ & D2).
    rewrite loadu2 by lia. rewrite !Z.add_assoc in *. rewrite A2, D2. reflexivity. }
  unfold block2. rewrite (Row i ltac:(lia)), (Row (i + 1) ltac:(lia)). cbn [rbind]. unfold lane. cbn [nth].
  assert (Col : forall b Y0, j <= b < j + 2 -> b_len Y0 = L ->
    exists Y1, storeu Y0 (y + b * H + i) [G (y + b * H + i); G (y + b * H + (i + 1))] = ROk Y1 /\
      good G (fun p => exists a, i <= a < i + 2 /\ p = y + b * H + a) Y0 Y1).
  { intros b Y0 Hb HY0.
    destruct (good_storeu G [G (y + b * H + i); G (y + b * H + (i + 1))] Y0 (y + b * H + i)) as (Y1 & E1 & G1).
    - destruct (R i b ltac:(lia) Hb) as (_ & B1 & _). lia.
    - destruct (R (i + 1) b ltac:(lia) Hb) as (_ & B1 & _). unfold zlen. cbn [length]. lia.
    - intros k Hk. cbn [length] in Hk. do 2 (destruct k as [|k]; [cbn [nth]; f_equal; lia|]). lia.
    - exists Y1. split; [exact E1|]. eapply good_weaken; [|exact G1]. unfold zlen. cbn [length].
      intros p (a & Ha & ->). lia. }
  destruct (Col j Y ltac:(lia) HL) as (Y1 & E1 & G1). rewrite E1. cbn [rbind].
  destruct (Col (j + 1) Y1 ltac:(lia)) as (Y2 & E2 & G2). { rewrite (g_len _ _ _ _ G1); auto. } rewrite E2.
  exists Y2. split; [reflexivity|]. eapply good_weaken; [|eapply good_trans; [exact G1|exact G2]].
  cbn beta. intros p (a & b & Ha & Hb & ->). assert (Hb2 : b = j \/ b = j + 1) by lia.
  destruct Hb2 as [-> | ->]; [left|right]; exists a; auto.
Qed.

Lemma transpose_hw_ok n (Y : buf A) : n = 4 \/ n = 2 -> b_len Y = L ->
  exists Y', transpose_hw n X x H W y Y = ROk Y' /\
    good G (fun p => exists i j, 0 <= i < H /\ 0 <= j < W /\ p = y + j * H + i) Y Y'.
Proof.
  intros Hn HL. assert (Hn0 : 0 < n) by lia.
  assert (QH := Z_div_mod_eq_full H n). assert (QW := Z_div_mod_eq_full W n).
  assert (MH := Z.mod_pos_bound H n Hn0). assert (MW := Z.mod_pos_bound W n Hn0).
  assert (PH : 0 <= H / n) by (apply Z.div_pos; lia). assert (PW : 0 <= W / n) by (apply Z.div_pos; lia).
  unfold transpose_hw.
  destruct (good_loop G (H / n) (fun bi p => exists a b, n * bi <= a < n * bi + n /\ 0 <= b < W /\ p = y + b * H + a)
    (fun bi Y =>
      let i := n * bi in
      do Y <- zloop (W / n) (fun bj Y =>
        let j := n * bj in
        if n =? 4 then block4 X x H W i j y Y else block2 X x H W i j y Y) Y;
      let j_remain := W - W mod n in
      zloop (W - j_remain) (fun k Y => column n X x H W i (j_remain + k) y Y) Y) Y L HL) as (Y1 & E1 & G1).
  { intros bi Y0 Hbi HY0. cbv zeta. assert (Hbn : n * bi + n <= H) by nia.
    destruct (good_loop G (W / n) (fun bj p => exists a b, n * bi <= a < n * bi + n /\ n * bj <= b < n * bj + n /\ p = y + b * H + a)
      (fun bj Y => if n =? 4 then block4 X x H W (n * bi) (n * bj) y Y else block2 X x H W (n * bi) (n * bj) y Y) Y0 L HY0) as (Y1 & E1 & G1).
    { intros bj Y1 Hbj HY1. assert (Hbm : n * bj + n <= W) by nia.
      destruct Hn as [-> | ->].
      - change (4 =? 4) with true. cbv iota. apply block4_ok; auto; nia.
      - change (2 =? 4) with false. cbv iota. apply block2_ok; auto; nia. }
    rewrite E1. cbn [rbind].
    destruct (good_loop G (W - (W - W mod n)) (fun k p => exists a, n * bi <= a < n * bi + n /\ p = y + (W - W mod n + k) * H + a)
      (fun k Y => column n X x H W (n * bi) (W - W mod n + k) y Y) Y1 L) as (Y2 & E2 & G2).
    { rewrite (g_len _ _ _ _ G1). auto. }
    { intros k Y2 Hk HY2. unfold column.
      destruct (good_loop G n (fun r => eq (y + (W - W mod n + k) * H + (n * bi + r)))
        (fun r => copy1 X (x + (n * bi + r) * W + (W - W mod n + k)) (y + (W - W mod n + k) * H + (n * bi + r))) Y2 L HY2) as (Y3 & E3 & G3).
      { intros r Y3 Hr HY3. destruct (Hx (n * bi + r) (W - W mod n + k) ltac:(nia) ltac:(lia)) as (A1 & A2 & A3).
        apply good_copy1; [exact A1|lia|exact A3]. }
      exists Y3. split; [exact E3|]. eapply good_weaken; [|exact G3]. cbn beta. intros p (a & Ha & ->).
      exists (a - n * bi). split; [lia|]. f_equal. lia. }
    exists Y2. split; [exact E2|]. eapply good_weaken; [|eapply good_trans; [exact G1|exact G2]]. cbn beta.
    intros p (a & b & Ha & Hb & ->). destruct (Z_lt_le_dec b (W - W mod n)) as [Hlt|Hge].
    - left. exists (b / n). assert (Mb := Z.mod_pos_bound b n Hn0). assert (Qb := Z_div_mod_eq_full b n).
      split; [split; [apply Z.div_pos; lia|apply Z.div_lt_upper_bound; lia]|]. exists a, b. repeat split; lia.
    - right. exists (b - (W - W mod n)). split; [lia|]. exists a. split; [lia|]. f_equal. f_equal. f_equal. lia. }
  cbv zeta in E1 |- *. rewrite E1. cbn [rbind]. set (ir := H - H mod n) in *.
  destruct (good_loop G W (fun j p => exists k, 0 <= k < H - ir /\ p = y + j * H + (ir + k))
    (fun j Y => zloop (H - ir) (fun k Y => copy1 X (x + (ir + k) * W + j) (y + j * H + (ir + k)) Y) Y) Y1 L) as (Y2 & E2 & G2).
  { rewrite (g_len _ _ _ _ G1). auto. }
  { intros j Y2 Hj HY2.
    destruct (good_loop G (H - ir) (fun k p => p = y + j * H + (ir + k))
      (fun k Y => copy1 X (x + (ir + k) * W + j) (y + j * H + (ir + k)) Y) Y2 L HY2) as (Y3 & E3 & G3).
    { intros k Y3 Hk HY3. destruct (Hx (ir + k) j ltac:(unfold ir in *; nia) Hj) as (A1 & A2 & A3).
      destruct (good_copy1 G X (x + (ir + k) * W + j) (y + j * H + (ir + k)) Y3 A1 ltac:(lia) A3) as (Y4 & E4 & G4).
      exists Y4. split; [exact E4|]. eapply good_weaken; [|exact G4]. auto. }
    exists Y3. split; [exact E3|exact G3]. }
  exists Y2. split; [exact E2|]. eapply good_weaken; [|eapply good_trans; [exact G1|exact G2]]. cbn beta.
  intros p (i & j & Hi & Hj & ->). destruct (Z_lt_le_dec i ir) as [Hlt|Hge].
  - left. exists (i / n). assert (Mb := Z.mod_pos_bound i n Hn0). assert (Qb := Z_div_mod_eq_full i n). unfold ir in *.
    split; [split; [apply Z.div_pos; lia|apply Z.div_lt_upper_bound; lia]|]. exists i, j. repeat split; lia.
  - right. exists j. split; [auto|]. exists (i - ir). split; [lia|]. f_equal. lia.
Qed.
End Matrix.
