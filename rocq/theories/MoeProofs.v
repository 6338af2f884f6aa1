(** The mixture of experts computes the weighted sums. *)
From Coq Require Import Sorting.Sorted.
From Verif Require Import Base DTypeModel ParamModel VlModel VlProofs MoeModel MoeSpec.
From Verif Require AotModel.
Local Open Scope nat_scope.

Lemma wr_nth {A} (b : list A) p x d : p < length b -> exists b', wr b p x = ROk b' /\ length b' = length b /\ forall q, nth q b' d = if q =? p then x else nth q b d.
Proof.
  intro H. unfold wr. destruct (p <? length b) eqn:E; [|lia]. eexists. split; [reflexivity|]. split.
  - rewrite app_length. cbn [length]. rewrite firstn_length, skipn_length. lia.
  - intro q. destruct (q =? p) eqn:Eq.
    + apply Nat.eqb_eq in Eq. subst q. rewrite app_nth2 by (rewrite firstn_length; lia). rewrite firstn_length, Nat.min_l by lia. rewrite Nat.sub_diag. reflexivity.
    + assert (N : q <> p) by lia. destruct (Nat.lt_ge_cases q p) as [L|L].
      * rewrite app_nth1 by (rewrite firstn_length; lia). rewrite <- (firstn_skipn p b) at 2. rewrite app_nth1 by (rewrite firstn_length; lia). reflexivity.
      * rewrite app_nth2 by (rewrite firstn_length; lia). rewrite firstn_length, Nat.min_l by lia. replace (q - p) with (S (q - S p)) by lia. cbn [nth].
        rewrite <- (firstn_skipn (S p) b) at 2. rewrite app_nth2 by (rewrite firstn_length; lia). rewrite firstn_length, Nat.min_l by lia. reflexivity.
Qed.

(** ** Counting *)
Lemma filter_none {A} (p : A -> bool) l : (forall x, In x l -> p x = false) -> length (filter p l) = 0.
Proof. induction l as [|a l IH]; intro H; [reflexivity|]. cbn. rewrite H by (left; reflexivity). apply IH. intros; apply H; right; assumption. Qed.
Definition row_count (ids : list Z) (k b e : nat) : nat := length (filter (fun j => (nth (b * k + j) ids 0 =? Z.of_nat e)%Z) (seq 0 k)).
Definition in_range (E : nat) (e : Z) : Prop := (0 <= e < Z.of_nat E)%Z.
Lemma count_row T k E ids b : length ids = T * k -> Forall (in_range E) ids -> b < T -> forall n s c, s + n <= k -> length c = T * E ->
  exists c', for_up n s (fun j c => do e <- rd ids (b * k + j);
      if (0 <=? e)%Z && (e <? Z.of_nat E)%Z then do v <- rd c (b * E + Z.to_nat e); wr c (b * E + Z.to_nat e) (v + 1) else RAbort) c = ROk c' /\
    length c' = T * E /\ forall p, nth p c' 0 = nth p c 0 + length (filter (fun j => b * E + Z.to_nat (nth (b * k + j) ids 0%Z) =? p) (seq s n)).
Proof.
  intros Hl Hr Hb. induction n as [|n IH]; intros s c Hs Hc; cbn [AotModel.for_up seq filter length].
  - exists c. split; [reflexivity|]. split; [exact Hc|]. intro p. lia.
  - assert (Hi : b * k + s < length ids) by (rewrite Hl; apply index_bound; lia).
    rewrite (rd_ok ids (b * k + s) (nth (b * k + s) ids 0%Z)) by (apply nth_error_nth'; exact Hi). cbn [rbind].
    assert (He : in_range E (nth (b * k + s) ids 0%Z)) by (apply Forall_nth; assumption). unfold in_range in He.
    set (e := nth (b * k + s) ids 0%Z) in *. clearbody e. replace ((0 <=? e)%Z && (e <? Z.of_nat E)%Z) with true by lia.
    assert (Hp : b * E + Z.to_nat e < length c) by (rewrite Hc; apply index_bound; lia).
    rewrite (rd_ok c _ (nth (b * E + Z.to_nat e) c 0)) by (apply nth_error_nth'; exact Hp). cbn [rbind].
    destruct (wr_nth c (b * E + Z.to_nat e) (nth (b * E + Z.to_nat e) c 0 + 1) 0 Hp) as (c1 & W & L1 & N1). rewrite W. cbn [rbind].
    destruct (IH (S s) c1) as (c' & E' & L' & N'); [lia|lia|]. exists c'. split; [exact E'|]. split; [exact L'|]. intro p. rewrite N', N1. rewrite (Nat.eqb_sym p).
    destruct (b * E + Z.to_nat e =? p) eqn:Ep; cbn [length]; [apply Nat.eqb_eq in Ep; subst p|]; lia.
Qed.
Lemma count_all T k E ids : length ids = T * k -> Forall (in_range E) ids -> forall n s c, s + n <= T -> length c = T * E ->
  exists c', for_up n s (fun b c => for_up k 0 (fun j c => do e <- rd ids (b * k + j);
      if (0 <=? e)%Z && (e <? Z.of_nat E)%Z then do v <- rd c (b * E + Z.to_nat e); wr c (b * E + Z.to_nat e) (v + 1) else RAbort) c) c = ROk c' /\
    length c' = T * E /\ forall b e, e < E -> nth (b * E + e) c' 0 = nth (b * E + e) c 0 + (if (s <=? b) && (b <? s + n) then row_count ids k b e else 0).
Proof.
  intros Hl Hr. induction n as [|n IH]; intros s c Hs Hc; cbn [AotModel.for_up].
  - exists c. split; [reflexivity|]. split; [exact Hc|]. intros b e He. destruct (_ && _) eqn:X; lia.
  - destruct (count_row T k E ids s Hl Hr ltac:(lia) k 0 c ltac:(lia) Hc) as (c1 & E1 & L1 & N1). rewrite E1. cbn [rbind].
    destruct (IH (S s) c1) as (c' & E' & L' & N'); [lia|exact L1|]. exists c'. split; [exact E'|]. split; [exact L'|]. intros b e He. rewrite N', N1 by exact He.
    assert (X : length (filter (fun j => s * E + Z.to_nat (nth (s * k + j) ids 0%Z) =? b * E + e) (seq 0 k)) = if b =? s then row_count ids k b e else 0).
    { destruct (b =? s) eqn:Eb.
      - apply Nat.eqb_eq in Eb. subst b. unfold row_count. f_equal. apply filter_ext_in. intros j Hj. apply in_seq in Hj.
        assert (in_range E (nth (s * k + j) ids 0%Z)) by (apply Forall_nth; [exact Hr|rewrite Hl; apply index_bound; lia]). unfold in_range in *. lia.
      - apply Nat.eqb_neq in Eb. apply filter_none. intros j Hj. apply in_seq in Hj.
        assert (R : in_range E (nth (s * k + j) ids 0%Z)) by (apply Forall_nth; [exact Hr|rewrite Hl; apply index_bound; lia]). unfold in_range in R.
        apply Nat.eqb_neq. intro X. apply Eb. rewrite <- (div_mul_add s E (Z.to_nat (nth (s * k + j) ids 0%Z))) by lia. rewrite X. symmetry. apply div_mul_add. exact He. }
    rewrite X. clear. destruct (b =? s) eqn:A, ((S s <=? b) && (b <? S s + n)) eqn:B, ((s <=? b) && (b <? s + S n)) eqn:C; lia.
Qed.
Lemma fold_add_len {X} (f : nat -> list X) l : fold_right Nat.add 0 (map (fun b => length (f b)) l) = length (flat_map f l).
Proof. induction l as [|b l IH]; [reflexivity|]. cbn. rewrite app_length, IH. reflexivity. Qed.
Lemma filter_flat {X Y} (p : Y -> bool) (f : X -> list Y) l : filter p (flat_map f l) = flat_map (fun b => filter p (f b)) l.
Proof. induction l as [|b l IH]; [reflexivity|]. cbn. rewrite filter_app, IH. reflexivity. Qed.
Lemma filter_map_len {X Y} (p : Y -> bool) (f : X -> Y) l : length (filter p (map f l)) = length (filter (fun x => p (f x)) l).
Proof. induction l as [|b l IH]; [reflexivity|]. cbn. destruct (p (f b)); cbn; rewrite IH; reflexivity. Qed.
Lemma map_nth_seq {X} (d : X) l : map (fun i => nth i l d) (seq 0 (length l)) = l.
Proof.
  apply nth_error_ext. intro j. destruct (Nat.lt_ge_cases j (length l)) as [J|J].
  - rewrite nth_error_map_seq by exact J. cbn [Nat.add]. symmetry. apply nth_error_nth'. exact J.
  - rewrite (proj2 (nth_error_None l j) J). apply nth_error_None. rewrite map_length, seq_length. exact J.
Qed.
Lemma map_flat {X Y} (h : X -> Y) {V} (f : V -> list X) l : map h (flat_map f l) = flat_map (fun b => map h (f b)) l.
Proof. induction l as [|b l IH]; [reflexivity|]. cbn. rewrite map_app, IH. reflexivity. Qed.
Lemma counts_ok T k E ids : length ids = T * k -> Forall (in_range E) ids ->
  exists c, count_ids T k E ids = ROk c /\ per_expert T E c = map (fun e => length (filter (fun z => (z =? Z.of_nat e)%Z) ids)) (seq 0 E).
Proof.
  intros Hl Hr. unfold count_ids. destruct (count_all T k E ids Hl Hr T 0 (repeat 0 (T * E))) as (c & Ec & Lc & Nc); [lia|apply repeat_length|].
  exists c. split; [exact Ec|]. unfold per_expert. apply map_ext_in. intros e He. apply in_seq in He.
  rewrite (map_ext_in _ (fun b => length (filter (fun j => (nth (b * k + j) ids 0 =? Z.of_nat e)%Z) (seq 0 k)))).
  2: { intros b Hb. apply in_seq in Hb. rewrite Nc by lia. replace (nth (b * E + e) (repeat 0 (T * E)) 0) with 0.
       - replace ((0 <=? b) && (b <? 0 + T)) with true by lia. reflexivity.
       - symmetry. destruct (nth_in_or_default (b * E + e) (repeat 0 (T * E)) 0) as [I|D]; [|exact D]. exact (repeat_spec _ _ _ I). }
  rewrite fold_add_len. assert (EI : ids = map (fun i => nth i ids 0%Z) (seq 0 (T * k))) by (rewrite <- Hl; symmetry; apply map_nth_seq). transitivity (length (filter (fun z => (z =? Z.of_nat e)%Z) (map (fun i => nth i ids 0%Z) (seq 0 (T * k))))); [|rewrite <- EI; reflexivity]. rewrite filter_map_len.
  replace (seq 0 (T * k)) with (flat_map (fun b => map (fun j => b * k + j) (seq 0 k)) (seq 0 T)).
  - rewrite filter_flat, <- !fold_add_len. f_equal. apply map_ext. intro b. rewrite filter_map_len. reflexivity.
  - symmetry. rewrite <- (map_id (seq 0 (T * k))). apply (map_seq_mul (fun i => i) T k).
Qed.
Lemma count_bad T k E ids e : length ids = T * k -> In e ids -> ~ in_range E e -> count_ids T k E ids = RAbort.
Proof.
  intros Hl He Hb. unfold count_ids.
  (* the first bad one *)
  assert (P : exists p, p < length ids /\ ~ in_range E (nth p ids 0%Z) /\ forall q, q < p -> in_range E (nth q ids 0%Z)).
  { clear Hl. induction ids as [|z ids IH]; [destruct He|]. destruct (Z_le_dec 0 z) as [A|A]; [destruct (Z_lt_dec z (Z.of_nat E)) as [B|B]|].
    - destruct He as [->|He]; [exfalso; apply Hb; split; assumption|]. destruct (IH He) as (p & Lp & Np & Qp). exists (S p). split; [cbn; lia|]. split; [exact Np|].
      intros [|q] Q; [split; assumption|apply Qp; lia].
    - exists 0. split; [cbn; lia|]. split; [cbn; intros [? ?]; contradiction|intros; lia].
    - exists 0. split; [cbn; lia|]. split; [cbn; intros [? ?]; contradiction|intros; lia]. }
  destruct P as (p & Lp & Np & Qp). rewrite Hl in Lp. destruct (index_split p T k Lp) as (b & j & Hb' & Hj & Ep).
  set (body := fun (b j : nat) (c : list nat) => do e <- rd ids (b * k + j);
      if (0 <=? e)%Z && (e <? Z.of_nat E)%Z then do v <- rd c (b * E + Z.to_nat e); wr c (b * E + Z.to_nat e) (v + 1) else RAbort).
  assert (IN : forall b' , b' <= b -> forall n s c, s + n = k -> length c = T * E -> (b' = b -> s <= j) ->
     match for_up n s (body b') c with ROk c' => b' < b /\ length c' = T * E | RAbort => b' = b | _ => False end).
  { intros b' Bb. induction n as [|n IH]; intros s c Hs Hc Hj'; cbn [AotModel.for_up].
    - split; [|exact Hc]. destruct (Nat.eq_dec b' b); [|lia]. specialize (Hj' e0). lia.
    - unfold body at 1. assert (Hi : b' * k + s < length ids) by (rewrite Hl; apply index_bound; lia).
      rewrite (rd_ok ids (b' * k + s) (nth (b' * k + s) ids 0%Z)) by (apply nth_error_nth'; exact Hi). cbn [rbind].
      destruct (Nat.eq_dec (b' * k + s) p) as [Eq|Nq].
      + rewrite Eq. unfold in_range in Np. replace ((0 <=? nth p ids 0)%Z && (nth p ids 0 <? Z.of_nat E)%Z) with false by lia.
        destruct (Nat.eq_dec b' b) as [->|Nb]; [reflexivity|]. exfalso. assert (b' = b); [|contradiction].
        rewrite <- (div_mul_add b' k s) by lia. rewrite Eq, Ep. apply div_mul_add. exact Hj.
      + assert (R : in_range E (nth (b' * k + s) ids 0%Z)).
        { apply Qp. destruct (Nat.eq_dec b' b) as [->|Nb]; [specialize (Hj' eq_refl); lia|]. assert (b' * k + s < S b' * k) by lia. assert (S b' * k <= b * k) by (apply Nat.mul_le_mono_r; lia). lia. }
        unfold in_range in R. replace ((0 <=? nth (b' * k + s) ids 0)%Z && (nth (b' * k + s) ids 0 <? Z.of_nat E)%Z) with true by lia.
        assert (Hp : b' * E + Z.to_nat (nth (b' * k + s) ids 0%Z) < length c) by (rewrite Hc; apply index_bound; lia).
        rewrite (rd_ok c _ _ (nth_error_nth' c 0 Hp)). cbn [rbind].
        destruct (wr_nth c _ (nth (b' * E + Z.to_nat (nth (b' * k + s) ids 0%Z)) c 0 + 1) 0 Hp) as (c1 & W & L1 & _). rewrite W. cbn [rbind].
        apply IH; [lia|lia|]. intro X. specialize (Hj' X). subst b'. destruct (Nat.eq_dec s j) as [->|]; [exfalso; apply Nq; lia|lia]. }
  assert (OUT : forall n s c, s + n = T -> length c = T * E -> s <= b -> for_up n s (fun b c => for_up k 0 (body b) c) c = RAbort).
  { induction n as [|n IH]; intros s c Hs Hc Hsb; [lia|]. cbn [AotModel.for_up]. assert (X := IN s Hsb k 0 c eq_refl Hc ltac:(lia)).
    destruct (for_up k 0 (body s) c) as [c'| | |]; cbn [rbind]; try contradiction; [|reflexivity]. destruct X as [X1 X2]. apply IH; lia. }
  apply OUT; [reflexivity|apply repeat_length|lia].
Qed.

(** ** The loop over the experts *)
Section Run.
Context {A R : Type} (key : A -> nat) (val : A -> R).
Lemma split_sorted e : forall l, StronglySorted (fun a b => key a <= key b) l -> Forall (fun a => e <= key a) l ->
  exists u v, l = u ++ v /\ length u = length (filter (fun a => key a =? e) l) /\ Forall (fun a => key a = e) u /\ Forall (fun a => e < key a) v /\ StronglySorted (fun a b => key a <= key b) v.
Proof.
  induction l as [|a l IH]; intros S H.
  - exists [], []. repeat split; constructor.
  - apply StronglySorted_inv in S. destruct S as [S Fa]. assert (Ha := Forall_inv H). apply Forall_inv_tail in H. cbn in Ha. cbn [filter].
    destruct (key a =? e) eqn:E.
    + apply Nat.eqb_eq in E. destruct (IH S H) as (u & v & -> & L & U & V & SV). exists (a :: u), v. split; [reflexivity|]. split; [cbn; rewrite L; reflexivity|].
      split; [constructor; assumption|]. split; assumption.
    + apply Nat.eqb_neq in E. exists [], (a :: l). split; [reflexivity|]. split.
      * symmetry. apply filter_none. intros x Hx. apply Nat.eqb_neq. rewrite Forall_forall in Fa. specialize (Fa x Hx). lia.
      * split; [constructor|]. split; [|constructor; assumption]. constructor; [lia|]. rewrite Forall_forall in *. intros x Hx. specialize (Fa x Hx). lia.
Qed.
Lemma run_ok (experts : list (list R -> list R)) (f : nat -> R -> R) l counts :
  (forall e g, nth_error experts e = Some g -> row_wise g (f e)) -> StronglySorted (fun a b => key a <= key b) l -> Forall (fun a => key a < length experts) l ->
  counts = map (fun e => length (filter (fun a => key a =? e) l)) (seq 0 (length experts)) ->
  exists outs, run_experts experts counts (map val l) = ROk (length l, outs) /\ concat outs = map (fun a => f (key a) (val a)) l /\ (outs = [] -> l = []).
Proof.
  intros Hg Sl Hk Hc. unfold run_experts.
  assert (G : forall n e pre rest outs, e + n = length experts -> l = pre ++ rest -> Forall (fun a => key a < e) pre -> Forall (fun a => e <= key a) rest ->
     StronglySorted (fun a b => key a <= key b) rest -> concat outs = map (fun a => f (key a) (val a)) pre -> (outs = [] -> pre = []) ->
     exists outs', for_up n e (fun i st => do n <- rd counts i; let start := fst st in let stop := start + n in
        if n =? 0 then ROk st else do g <- rd experts i; ROk (stop, snd st ++ [g (firstn (stop - start) (skipn start (map val l)))])) (length pre, outs) = ROk (length l, outs') /\
       concat outs' = map (fun a => f (key a) (val a)) l /\ (outs' = [] -> l = [])).
  { induction n as [|n IH]; intros e pre rest outs He El Hpre Hrest Srest Co Ne; cbn [AotModel.for_up].
    - assert (rest = []). { destruct rest as [|a rest]; [reflexivity|]. exfalso. assert (X := Forall_inv Hrest). cbn in X.
        assert (Y : In a l) by (rewrite El; apply in_or_app; right; left; reflexivity). rewrite Forall_forall in Hk. specialize (Hk a Y). lia. }
      subst rest. rewrite app_nil_r in El. subst pre. exists outs. auto.
    - rewrite (rd_ok counts e (length (filter (fun a => key a =? e) l))) by (rewrite Hc; rewrite nth_error_map_seq by lia; reflexivity). cbn [rbind].
      destruct (split_sorted e rest Srest Hrest) as (u & v & Er & Lu & Hu & Hv & Sv).
      assert (Lc : length (filter (fun a => key a =? e) l) = length u).
      { rewrite El, filter_app, app_length, <- Lu. rewrite filter_none; [reflexivity|]. 
        intros x Hx. rewrite Forall_forall in Hpre. specialize (Hpre x Hx). apply Nat.eqb_neq. lia. }
      rewrite Lc. cbv zeta. cbn [fst snd]. subst rest.
      destruct (length u =? 0) eqn:E0.
      + apply Nat.eqb_eq in E0. destruct u; [|discriminate]. cbn [rbind]. cbn [app] in El. apply (IH (S e) pre v outs); auto; try lia.
        eapply Forall_impl; [|exact Hpre]. cbn. intros; lia.
      + destruct (nth_error experts e) as [g|] eqn:Eg; [|apply nth_error_None in Eg; lia]. rewrite (rd_ok _ _ _ Eg). cbn [rbind].
        assert (Nu : u <> []) by (intros ->; discriminate).
        replace (firstn (length pre + length u - length pre) (skipn (length pre) (map val l))) with (map val u).
        2: { rewrite El, !map_app. rewrite skipn_app, map_length, Nat.sub_diag. rewrite (skipn_all2 (map val pre)) by (rewrite map_length; lia). cbn [app skipn].
             replace (length pre + length u - length pre) with (length (map val u)) by (rewrite map_length; lia). rewrite firstn_app, Nat.sub_diag, firstn_all. cbn [firstn]. rewrite app_nil_r. reflexivity. }
        assert (Eo : g (map val u) = map (fun a => f (key a) (val a)) u).
        { rewrite (Hg e g Eg) by (destruct u; [congruence|discriminate]). rewrite map_map. apply map_ext_in. intros a Ha. rewrite Forall_forall in Hu. rewrite (Hu a Ha). reflexivity. }
        rewrite <- app_length. apply (IH (S e) (pre ++ u) v).
        * lia.
        * rewrite <- app_assoc. exact El.
        * apply Forall_app. split; [eapply Forall_impl; [|exact Hpre]; cbn; intros; lia|eapply Forall_impl; [|exact Hu]; cbn; intros; lia].
        * exact Hv.
        * exact Sv.
        * rewrite concat_app, Co. cbn [concat]. rewrite app_nil_r, Eo, map_app. reflexivity.
        * intro X. apply app_eq_nil in X. destruct X as [_ X]. discriminate. }
  destruct (G (length experts) 0 [] l []) as (outs & E & C & N); auto; try lia.
  - apply Forall_forall. intros. lia.
  - exists outs. auto.
Qed.
End Run.
Lemma strongly_sorted_nth {A} (key : A -> nat) d : forall l, (forall a b, a <= b < length l -> key (nth a l d) <= key (nth b l d)) -> StronglySorted (fun a b => key a <= key b) l.
Proof.
  induction l as [|x l IH]; intro H; constructor.
  - apply IH. intros a b Hab. apply (H (S a) (S b)). cbn. lia.
  - apply Forall_forall. intros y Hy. destruct (In_nth _ _ d Hy) as (b & Hb & <-). apply (H 0 (S b)). cbn. lia.
Qed.
Lemma perm_filter_len {A} (p : A -> bool) l l' : Permutation l l' -> length (filter p l) = length (filter p l').
Proof. intro P. induction P; cbn; [reflexivity|destruct (p x); cbn; lia|destruct (p x), (p y); reflexivity|lia]. Qed.

(** ** The whole *)
Lemma map_res_eq {X Y} (f : X -> res Y) (h : X -> Y) l : (forall x, In x l -> f x = ROk (h x)) -> AotModel.map_res f l = ROk (map h l).
Proof. induction l as [|x l IH]; intro H; [reflexivity|]. cbn. rewrite H by (left; reflexivity). cbn. rewrite IH by (intros; apply H; right; assumption). reflexivity. Qed.
Section Whole.
Context {R W : Type} (scale : W -> R -> R) (total : list R -> R).
Lemma moe_ok sort quot junk (experts : list (list R -> list R)) (f : nat -> R -> R) (x : list R) k ids (weights : list W) r0 w0 :
  let T := length x in
  0 < T -> 0 < k -> length ids = T * k -> length weights = T * k -> Forall (in_range (length experts)) ids -> sorts ids (sort ids) ->
  (forall i, i < T * k -> quot i k = i / k) -> (forall n, length (junk n) = n) ->
  (forall e g, nth_error experts e = Some g -> row_wise g (f e)) ->
  moe_infer scale total sort quot junk experts x T k ids weights =
  ROk (map (fun t => mixture scale total f ids weights w0 k t (nth t x r0)) (seq 0 T)).
Proof.
  intros T HT Hk Hl Hw Hr Hs Hq Hj Hg. unfold moe_infer. destruct (counts_ok T k (length experts) ids Hl Hr) as (c & Ec & Pc). rewrite Ec. cbn [rbind].
  destruct (k =? 0) eqn:K0; [lia|]. destruct Hs as [Pm Or]. set (idxs := sort ids) in *. clearbody idxs.
  assert (Li : length idxs = T * k) by (rewrite (Permutation_length Pm), seq_length; exact Hl).
  assert (Bi : forall i, In i idxs -> i < T * k) by (intros i Hi; apply (Permutation_in _ Pm) in Hi; apply in_seq in Hi; lia).
  assert (Bq : forall i, i < T * k -> i / k < T) by (intros i Hi; apply Nat.div_lt_upper_bound; lia).
  rewrite (map_res_eq _ (fun i => nth (i / k) x r0)).
  2: { intros i Hi. specialize (Bi i Hi). rewrite Hq by exact Bi. apply rd_ok, nth_error_nth'. apply Bq. exact Bi. }
  cbn [rbind]. set (key := fun i => Z.to_nat (nth i ids 0%Z)).
  assert (Rk : forall i, i < T * k -> in_range (length experts) (nth i ids 0%Z)) by (intros i Hi; apply Forall_nth; [exact Hr|lia]).
  destruct (run_ok key (fun i => nth (i / k) x r0) experts f idxs (per_expert T (length experts) c) Hg) as (outs & Eo & Co & No).
  - apply (strongly_sorted_nth key 0). intros a b Hab. unfold key. specialize (Or a b Hab). lia.
  - apply Forall_forall. intros i Hi. specialize (Rk i (Bi i Hi)). unfold in_range in Rk. unfold key. lia.
  - rewrite Pc. apply map_ext. intro e. rewrite (perm_filter_len _ _ _ Pm). rewrite <- (map_nth_seq 0%Z ids) at 1. rewrite filter_map_len. f_equal.
    apply filter_ext_in. intros i Hi. apply in_seq in Hi. assert (X := Rk i ltac:(lia)). unfold in_range in X. unfold key. lia.
  - rewrite Eo. cbn [rbind snd]. destruct outs as [|o outs]. { assert (X := No eq_refl). rewrite X in Li. cbn in Li. assert (0 < T * k) by (apply Nat.mul_pos_pos; lia). lia. }
    set (all := o :: outs) in *. clearbody all. cbv zeta. rewrite Co, map_length, Nat.eqb_refl.
    set (h := fun i => f (key i) (nth (i / k) x r0)) in *.
    assert (D : does (for_up (length idxs) 0 (fun i b => do p <- rd idxs i; do r <- rd (map h idxs) i; wr b p r))
       (flat_map (fun i => [(nth i idxs 0, h (nth i idxs 0))]) (seq 0 (length idxs)))).
    { apply does_loop. intros i Hi. eapply does_ext; [|apply does_one]. intro b. cbv beta.
      assert (N : nth_error idxs i = Some (nth i idxs 0)) by (apply nth_error_nth'; lia).
      rewrite (rd_ok _ _ _ N). cbn [rbind]. rewrite (rd_ok _ _ (h (nth i idxs 0))) by (rewrite nth_error_map, N; reflexivity). reflexivity. }
    rewrite (D (junk (length idxs)) (map h (seq 0 (T * k)))).
    2: { rewrite (put_whole _ _ h).
         - rewrite Hj, Li. reflexivity.
         - intros p v I. apply in_loop in I. destruct I as (i & Hi & [X|[]]). injection X as <- <-. rewrite Hj, Li. split; [|reflexivity]. apply Bi, nth_In. lia.
         - intros p Hp. rewrite Hj, Li in Hp. assert (I : In p idxs) by (apply (Permutation_in _ (Permutation_sym Pm)), in_seq; lia).
           destruct (In_nth _ _ 0 I) as (i & Hi & <-). eexists. apply in_loop. exists i. split; [lia|]. left. reflexivity. }
    cbn [rbind].
    apply map_res_eq. intros t Ht. apply in_seq in Ht.
    rewrite (map_res_eq _ (fun j => scale (nth (t * k + j) weights w0) (f (expert_of ids k t j) (nth t x r0)))); [reflexivity|].
    intros j Hjk. apply in_seq in Hjk. assert (B : t * k + j < T * k) by (apply index_bound; lia).
    rewrite (rd_ok _ _ (h (t * k + j))) by (rewrite nth_error_map_seq by exact B; reflexivity). cbn [rbind].
    rewrite (rd_ok weights (t * k + j) (nth (t * k + j) weights w0)) by (apply nth_error_nth'; rewrite Hw; exact B). cbn [rbind]. unfold h, key, expert_of. rewrite div_mul_add by lia. reflexivity.
Qed.
End Whole.
