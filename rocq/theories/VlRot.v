(** The angles of the patches. *)
From Verif Require Import Base DTypeModel ParamModel TensorModel VlModel VlSpec VlProofs VlGrid.
From Verif Require AotModel AotProofs AotGraph.
Local Open Scope nat_scope.

Section Rotary.
Context {F : Type}.
Variable times : nat -> F -> F.

Lemma forall_len : forall {X} (f : X -> list F) k l, (forall x, length (f x) = k) -> Forall (fun x => length (f x) = k) l.
Proof. intros X f k l H. induction l; constructor; auto. Qed.

Lemma full_ok : forall inv n b, 0 < n -> length b = n * length inv ->
  rotary_full times inv n b = ROk (flat_map (fun i => map (times i) inv) (seq 0 n)).
Proof.
  intros inv n b Hn Hl. unfold rotary_full. replace (n =? 0) with false by lia. replace (length b =? n * length inv) with true by lia.
  set (dim := length inv) in *.
  assert (Fl : forall l, Forall (fun i => length (map (times i) inv) = dim) l).
  { intro l. apply forall_len. intro x. apply map_length. }
  apply (does_loop _ (fun i => flat_map (fun j => match nth_error inv j with Some f => [(i * dim + j, times i f)] | None => [] end) (seq 0 dim))).
  - intros i _. apply does_loop. intros j Hj. destruct (nth_error inv j) as [f|] eqn:E.
    + eapply does_ext; [|apply does_one]. intro b0. rewrite (rd_ok inv j f E). reflexivity.
    + exfalso. apply nth_error_None in E. fold dim in E. lia.
  - apply put_list.
    + rewrite Hl, (AotGraph.flat_map_len _ dim), seq_length; [reflexivity|]. intros x _. apply map_length.
    + intros p v I. apply in_loop in I as (i & I1 & I). apply in_loop in I as (j & I2 & I).
      destruct (nth_error inv j) as [f|] eqn:E; [|destruct I]. destruct I as [I|[]]. injection I as <- <-.
      rewrite (nth_error_flat _ dim) by (auto; lia). rewrite nth_error_seq by lia. cbn [Nat.add]. rewrite nth_error_map, E. reflexivity.
    + intros p Hp. rewrite (AotGraph.flat_map_len _ dim), seq_length in Hp by (intros x _; apply map_length).
      destruct (index_split p n dim Hp) as (i & j & Hi & Hj & ->).
      destruct (nth_error inv j) as [f|] eqn:E; [|apply nth_error_None in E; fold dim in E; lia].
      exists (times i f). apply in_loop. exists i. split; [lia|]. apply in_loop. exists j. split; [lia|]. rewrite E. left. reflexivity.
Qed.

Lemma copy_row_does : forall (from : list F) p dim q, p + dim <= length from ->
  does (fun b => copy_row from p dim b q) (flat_map (fun k => match nth_error from (p + k) with Some x => [(q + k, x)] | None => [] end) (seq 0 dim)).
Proof.
  intros from p dim q H. unfold copy_row. apply does_loop. intros k Hk. destruct (nth_error from (p + k)) as [x|] eqn:E.
  - eapply does_ext; [|apply does_one]. intro b. rewrite (rd_ok _ _ _ E). reflexivity.
  - apply nth_error_None in E. lia.
Qed.

Lemma rotary_ok : forall inv num ids n g b,
  inv <> [] -> positions_of g = n -> 0 < n -> length b = n * (2 * length inv) ->
  (forall i j, i < n -> j < 2 -> exists p, nth_error ids (i * 2 + j) = Some p /\ p < num) ->
  visual_rotary (flat_map (fun i => map (times i) inv) (seq 0 num)) num (length inv) ids n g b =
  ROk (flat_map (fun i => map (times (nth (i * 2) ids 0)) inv ++ map (times (nth (i * 2 + 1) ids 0)) inv) (seq 0 n)).
Proof.
  intros inv num ids n g b Hi Hg Hn Hl Hids. unfold visual_rotary.
  set (dim := length inv) in *. set (full := flat_map (fun i => map (times i) inv) (seq 0 num)).
  assert (Hd : 0 < dim) by (destruct inv; [contradiction|cbn; lia]).
  assert (Hnum : 0 < num) by (destruct (Hids 0 0 ltac:(lia) ltac:(lia)) as (p & _ & Hp); lia).
  replace (length b =? n * (2 * dim)) with true by lia. cbn [negb].
  replace ((num =? 0) || (dim =? 0) || (n =? 0)) with false by lia. replace (positions_of g =? n) with true by lia. cbn [negb].
  assert (Lfull : length full = num * dim).
  { unfold full. rewrite (AotGraph.flat_map_len _ dim), seq_length; [reflexivity|]. intros x _. apply map_length. }
  assert (Efull : forall p k, p < num -> k < dim -> nth_error full (p * dim + k) = option_map (times p) (nth_error inv k)).
  { intros p k Hp Hk. unfold full. rewrite (nth_error_flat _ dim) by (auto; apply forall_len; intro; apply map_length).
    rewrite nth_error_seq by lia. cbn [Nat.add]. rewrite nth_error_map. reflexivity. }
  destruct (AotProofs.for_up_inv (fun _ _ => True) (fun i u => for_up 2 0 (fun j u => do p <- rd ids (i * 2 + j); if num <=? p then RAbort else ROk u) u) n 0 tt I)
    as ([] & Echeck & _).
  { intros i u Hi' _. destruct (AotProofs.for_up_inv (fun _ _ => True) (fun j u => do p <- rd ids (i * 2 + j); if num <=? p then RAbort else ROk u) 2 0 u I)
      as (u' & E & _).
    { intros j u0 Hj _. destruct (Hids i j ltac:(lia) ltac:(lia)) as (p & E & Hp). rewrite (rd_ok _ _ _ E). cbn [rbind].
      replace (num <=? p) with false by lia. exists u0. auto. }
    exists u'. auto. }
  match goal with |- rbind ?x _ = _ => replace x with (ROk tt) end. cbn [rbind].
  apply (does_loop _ (fun i => flat_map (fun j => flat_map (fun k => match nth_error full (nth (i * 2 + j) ids 0 * dim + k) with
                                                               Some x => [(i * (2 * dim) + j * dim + k, x)] | None => [] end) (seq 0 dim)) (seq 0 2))).
  - intros i Hi' b0 b1 E0.
    assert (C : counts (for_up 2 0 (fun j st => do p <- rd ids (i * 2 + j);
                                       do b <- copy_row full (p * dim) dim (snd st) (i * (2 * dim) + fst st);
                                       ROk (fst st + dim, b))) (2 * dim)
        (fun c => flat_map (fun j => flat_map (fun k => match nth_error full (nth (i * 2 + j) ids 0 * dim + k) with
                     Some x => [(i * (2 * dim) + (c + (j - 0) * dim) + k, x)] | None => [] end) (seq 0 dim)) (seq 0 2))).
    { apply (counts_loop _ dim (fun j c => flat_map (fun k => match nth_error full (nth (i * 2 + j) ids 0 * dim + k) with
                     Some x => [(i * (2 * dim) + c + k, x)] | None => [] end) (seq 0 dim))).
      intros j Hj c b2 b3 E2. destruct (Hids i j ltac:(lia) ltac:(lia)) as (p & E & Hp). rewrite (rd_ok _ _ _ E). cbn [rbind fst snd].
      rewrite (nth_error_nth _ _ 0 E) in E2.
      rewrite (copy_row_does full (p * dim) dim (i * (2 * dim) + c)) with (b' := b3); [reflexivity| |exact E2].
      rewrite Lfull. assert ((p + 1) * dim <= num * dim) by (apply Nat.mul_le_mono_r; lia). lia. }
    rewrite (C 0 b0 b1); [reflexivity|]. exact E0.
  - assert (Lrow : forall i, length (map (times (nth (i * 2) ids 0)) inv ++ map (times (nth (i * 2 + 1) ids 0)) inv) = 2 * dim).
    { intro i. rewrite app_length, !map_length. fold dim. lia. }
    assert (Lt : length (flat_map (fun i => map (times (nth (i * 2) ids 0)) inv ++ map (times (nth (i * 2 + 1) ids 0)) inv) (seq 0 n)) = n * (2 * dim)).
    { rewrite (AotGraph.flat_map_len _ (2 * dim)), seq_length; auto. }
    assert (Et : forall i j k, i < n -> j < 2 -> k < dim ->
      nth_error (flat_map (fun i => map (times (nth (i * 2) ids 0)) inv ++ map (times (nth (i * 2 + 1) ids 0)) inv) (seq 0 n)) (i * (2 * dim) + (j * dim + k))
      = option_map (times (nth (i * 2 + j) ids 0)) (nth_error inv k)).
    { intros i j k Hi' Hj Hk. rewrite (nth_error_flat _ (2 * dim)) by (first [apply forall_len; exact Lrow|destruct j as [|[|]]; lia]).
      rewrite nth_error_seq by lia. cbn [Nat.add]. destruct j as [|[|]]; [| |lia].
      - cbn [Nat.mul Nat.add]. rewrite nth_error_app1 by (rewrite map_length; fold dim; lia). rewrite Nat.add_0_r, nth_error_map. reflexivity.
      - rewrite nth_error_app2 by (rewrite map_length; fold dim; lia). rewrite map_length. fold dim.
        replace (1 * dim + k - dim) with k by lia. rewrite nth_error_map. reflexivity. }
    apply put_list; [lia| |].
    + intros p v I. apply in_loop in I as (i & I1 & I). apply in_loop in I as (j & I2 & I). apply in_loop in I as (k & I3 & I).
      destruct (Hids i j ltac:(lia) ltac:(lia)) as (q & Eq & Hq). rewrite (nth_error_nth _ _ 0 Eq) in I.
      rewrite Efull in I by lia. destruct (nth_error inv k) as [f|] eqn:Ek; [|destruct I]. cbn [option_map] in I. destruct I as [I|[]].
      injection I as <- <-. rewrite <- Nat.add_assoc. rewrite Et by lia. rewrite (nth_error_nth _ _ 0 Eq), Ek. reflexivity.
    + intros p Hp. rewrite Lt in Hp. destruct (index_split p n (2 * dim) Hp) as (i & r & Hi' & Hr & ->).
      destruct (index_split r 2 dim Hr) as (j & k & Hj & Hk & ->).
      destruct (nth_error inv k) as [f|] eqn:Ek; [|apply nth_error_None in Ek; fold dim in Ek; lia].
      destruct (Hids i j ltac:(lia) ltac:(lia)) as (q & Eq & Hq).
      exists (times q f). apply in_loop. exists i. split; [lia|]. apply in_loop. exists j. split; [lia|]. apply in_loop. exists k. split; [lia|].
      rewrite (nth_error_nth _ _ 0 Eq), Efull, Ek by lia. cbn [option_map]. left. f_equal. lia.
Qed.

Lemma cell_bound : forall m g y x, whole_blocks m g -> In (y, x) (patch_cells m g) -> y < positions_of g /\ x < positions_of g.
Proof.
  intros m [[t h] w] y x Hwb I. destruct Hwb as (Hm & Ht & Hh & Hw & (nh & Eh) & (nw & Ew)). unfold patch_cells in I.
  assert (Hnw : 0 < nw) by (destruct nw; lia).
  assert (J : In (y, x) (cells m h w)). { clear - I. induction t as [|t IH]; cbn [repeat concat] in I; [destruct I|]. apply in_app_or in I as [I|I]; auto. }
  apply (Permutation_in _ (cells_all m h w nh nw Hm Hnw Eh Ew)) in J. apply in_prod_iff in J as [J1 J2]. apply in_seq in J1, J2.
  unfold positions_of. assert (P1 : 1 * 1 <= t * w) by (apply Nat.mul_le_mono; lia). assert (P2 : 1 * 1 <= t * h) by (apply Nat.mul_le_mono; lia).
  assert (Q1 : 1 * h <= (t * w) * h) by (apply Nat.mul_le_mono_r; lia). assert (Q2 : 1 * w <= (t * h) * w) by (apply Nat.mul_le_mono_r; lia).
  replace (t * h * w) with (t * w * h) at 1 by lia. lia.
Qed.
Lemma nth_flat2 : forall l i, i < length l -> nth (i * 2) (flat2 l) 0 = fst (nth i l (0, 0)) /\ nth (i * 2 + 1) (flat2 l) 0 = snd (nth i l (0, 0)).
Proof.
  intros l i H. split; [|apply (flat2_nth l i 1 0 H); lia]. rewrite <- (Nat.add_0_r (i * 2)). apply (flat2_nth l i 0 0 H). lia.
Qed.

Lemma angles_ok : forall m g inv b1 b2 b3, whole_blocks m g -> inv <> [] ->
  length b1 = positions_of g * 2 -> length b2 = positions_of g * length inv -> length b3 = positions_of g * (2 * length inv) ->
  patch_angles times m [g] inv (positions_of g) b1 b2 b3 =
  ROk (flat_map (fun yx => map (times (fst yx)) inv ++ map (times (snd yx)) inv) (patch_cells m g)).
Proof.
  intros m g inv b1 b2 b3 Hg Hi H1 H2 H3. unfold patch_angles.
  assert (Tot : total_positions [g] = positions_of g) by (rewrite total_cons; unfold total_positions; cbn; lia).
  assert (Lc := patch_cells_len m g Hg).
  assert (Pos : 0 < positions_of g).
  { destruct g as [[t h] w]. destruct Hg as (Hm & Ht & Hh & Hw & _). unfold positions_of. clear - Ht Hh Hw.
    assert (1 * 1 <= t * h) by (apply Nat.mul_le_mono; lia). assert (1 * 1 <= t * h * w) by (apply Nat.mul_le_mono; lia). lia. }
  rewrite visual_ids_ok by (first [constructor; [exact Hg|constructor]|lia]). cbn [rbind flat_map]. rewrite app_nil_r.
  rewrite full_ok by auto. cbn [rbind]. rewrite Tot. rewrite rotary_ok; auto.
  - f_equal. rewrite <- Lc. set (pc := patch_cells m g). clearbody pc. clear.
    rewrite !flat_map_concat_map. f_equal.
    apply nth_error_ext. intro j. rewrite !nth_error_map. destruct (Nat.lt_ge_cases j (length pc)) as [J|J].
    + rewrite nth_error_seq by lia. cbn [Nat.add option_map]. destruct (nth_flat2 pc j J) as [-> ->].
      rewrite (nth_error_nth' pc (0, 0) J). reflexivity.
    + rewrite (proj2 (nth_error_None (seq 0 (length pc)) j)), (proj2 (nth_error_None pc j)) by (rewrite ?seq_length; lia). reflexivity.
  - intros i j Hi' Hj. rewrite <- Lc in Hi'. exists (nth (i * 2 + j) (flat2 (patch_cells m g)) 0).
    split; [apply nth_error_nth'; rewrite flat2_len; lia|].
    rewrite flat2_nth by auto. assert (I := nth_In (patch_cells m g) (0, 0) Hi'). destruct (nth i (patch_cells m g) (0, 0)) as [y x] eqn:E.
    destruct (cell_bound m g y x Hg I). destruct (j =? 0); cbn [fst snd]; lia.
Qed.
End Rotary.
