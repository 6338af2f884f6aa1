(** Proofs about the CPU operators, part 1: loops over all output positions,
    broadcasting arithmetic. *)
From Verif Require Import Base DTypeModel ParamModel ParamSpec ParamProofs TensorModel TensorSpec TensorProofs TensorSplit
  OpsModel OpsSpec.
Local Open Scope Z_scope.

(* ---------------- producing a tensor ---------------- *)
Lemma produces_intro {A} shape (F : list Z -> option A) (o : buf A) :
  (1 <= length shape <= 16)%nat -> Forall (fun d => 0 <= d) shape -> b_len o = product shape ->
  (forall idx, in_shape shape idx -> b_at o (ravel shape idx) = F idx) ->
  produces shape F (mkTns (mkV shape (default_strides shape) 0) o).
Proof.
  intros Hr Hd Hl H. destruct (owner_ok shape o Hr Hd Hl) as [O1 O2].
  split; [reflexivity|]. split; [exact O1|]. split; [exact O2|].
  intros idx Hi. rewrite owner_elem by (apply in_shape_length; auto). auto.
Qed.
(** The usual prescription: position -> element. *)
Definition at_pos {A} (shape : list Z) (F : list Z -> option A) (pos : Z) : option A := F (unravel shape pos).
Lemma at_pos_ravel {A} shape (F : list Z -> option A) idx : in_shape shape idx -> at_pos shape F (ravel shape idx) = F idx.
Proof. intro H. unfold at_pos. rewrite unravel_ravel by auto. reflexivity. Qed.
Lemma produces_good {A} shape (F : list Z -> option A) (P : Z -> Prop) (o : buf A) :
  (1 <= length shape <= 16)%nat -> Forall (fun d => 0 <= d) shape ->
  good (at_pos shape F) P (mkBuf (product shape) (fun _ => None)) o ->
  (forall pos, 0 <= pos < product shape -> P pos) ->
  produces shape F (mkTns (mkV shape (default_strides shape) 0) o).
Proof.
  intros Hr Hd G H. apply produces_intro; auto; [rewrite (g_len _ _ _ _ G); reflexivity|].
  intros idx Hi. rewrite (g_set _ _ _ _ G); [apply at_pos_ravel; auto|]. apply H. apply ravel_bounds; auto.
Qed.
Lemma produces_ext {A} shape (F F' : list Z -> option A) out :
  produces shape F out -> (forall idx, in_shape shape idx -> F idx = F' idx) -> produces shape F' out.
Proof. intros (a & b & c & d) H. split; [auto|]. split; [auto|]. split; [auto|]. intros idx Hi. rewrite d; auto. Qed.

Lemma load_ok {A} (b : buf A) i : 0 <= i < b_len b -> load b i = ROk (b_at b i).
Proof. intro H. unfold load. replace ((0 <=? i) && (i <? b_len b)) with true by lia. reflexivity. Qed.

(* ---------------- vector loops ---------------- *)
Lemma vec_for_good {A} (G : Z -> option A) N count body (b : buf A) L oo :
  0 < N -> 0 <= count -> b_len b = L ->
  (forall j b, 0 <= j < count -> b_len b = L -> exists b', body j b = ROk b' /\ good G (eq (oo + j)) b b') ->
  exists b', vec_for N count body b = ROk b' /\ good G (fun d => oo <= d < oo + count) b b'.
Proof.
  intros HN Hc HL Hb. unfold vec_for.
  assert (Hq : 0 <= count / N) by (apply Z.div_pos; lia).
  assert (Hm := Z_div_mod_eq_full count N). assert (Hr := Z.mod_pos_bound count N HN).
  destruct (good_loop G (count / N) (fun v d => oo + v * N <= d < oo + v * N + N)
     (fun v s => zloop N (fun j s => body (v * N + j) s) s) b L HL) as (b1 & E1 & G1).
  { intros v b1 Hv H1.
    destruct (good_loop G N (fun j => eq (oo + (v * N + j))) (fun j s => body (v * N + j) s) b1 L H1) as (b2 & E2 & G2).
    { intros j b2 Hj H2. apply Hb; auto. nia. }
    exists b2. split; auto. eapply good_weaken; [|exact G2]. intros d Hd. exists (d - oo - v * N). split; lia. }
  rewrite E1. cbn [rbind].
  assert (H1 : b_len b1 = L) by (rewrite (g_len _ _ _ _ G1); auto).
  assert (Cov : forall d, oo <= d < oo + count / N * N ->
     exists v, 0 <= v < count / N /\ oo + v * N <= d < oo + v * N + N).
  { intros d Hd. exists ((d - oo) / N). assert (M := Z_div_mod_eq_full (d - oo) N). assert (M2 := Z.mod_pos_bound (d - oo) N HN).
    split; [|lia]. split; [apply Z.div_pos; lia|]. apply Z.div_lt_upper_bound; lia. }
  destruct (count / N * N <? count) eqn:Q.
  - destruct (good_loop G (count - count / N * N) (fun j => eq (oo + (count / N * N + j)))
      (fun j s => body (count / N * N + j) s) b1 L H1) as (b2 & E2 & G2).
    { intros j b2 Hj H2. apply Hb; auto. lia. }
    exists b2. split; auto. eapply good_weaken; [|eapply good_trans; eauto].
    intros d Hd. destruct (Z_lt_le_dec d (oo + count / N * N)) as [Hlt|Hge].
    + left. apply Cov. lia.
    + right. exists (d - oo - count / N * N). split; lia.
  - exists b1. split; auto. eapply good_weaken; [|exact G1]. intros d Hd. apply Cov. lia.
Qed.
Lemma ew_impl_good {A} (G : Z -> option A) f N x xo y yo oo count (o : buf A) :
  0 < N -> 0 <= count ->
  (0 < count -> 0 <= xo /\ xo + count <= b_len x) -> (0 < count -> 0 <= yo /\ yo + count <= b_len y) ->
  (0 < count -> 0 <= oo /\ oo + count <= b_len o) ->
  (forall j, 0 <= j < count -> apply2 f (b_at x (xo + j)) (b_at y (yo + j)) = G (oo + j)) ->
  exists o', ew_impl f N x xo y yo oo count o = ROk o' /\ good G (fun d => oo <= d < oo + count) o o'.
Proof.
  intros HN Hc Hx Hy Ho H. unfold ew_impl. apply (vec_for_good G N count _ o (b_len o)); auto.
  intros j b Hj Hb. rewrite !load_ok by lia. cbn [rbind]. apply good_store; [lia|]. exact (H j Hj).
Qed.
Lemma ew_scl_impl_good {A} (G : Z -> option A) f N x xo y oo count (o : buf A) :
  0 < N -> 0 <= count ->
  (0 < count -> 0 <= xo /\ xo + count <= b_len x) ->
  (0 < count -> 0 <= oo /\ oo + count <= b_len o) ->
  (forall j, 0 <= j < count -> apply2 f (b_at x (xo + j)) y = G (oo + j)) ->
  exists o', ew_scl_impl f N x xo y oo count o = ROk o' /\ good G (fun d => oo <= d < oo + count) o o'.
Proof.
  intros HN Hc Hx Ho H. unfold ew_scl_impl. apply (vec_for_good G N count _ o (b_len o)); auto.
  intros j b Hj Hb. rewrite !load_ok by lia. cbn [rbind]. apply good_store; [lia|]. exact (H j Hj).
Qed.

(* ---------------- broadcast shapes ---------------- *)
Lemma zloop_list {X} n (f : Z -> res X) : forall r : list X, (exists l, zloop n (fun i out => do d <- f i; ROk (out ++ [d])) [] = ROk l /\ l = r) <->
  (length r = Z.to_nat n /\ forall i x, nth_error r i = Some x -> f (Z.of_nat i) = ROk x).
Proof.
  unfold zloop. induction (Z.to_nat n) as [|m IH]; intro r.
  - cbn [loop]. split.
    + intros (l & E & <-). inversion E; subst. split; auto. intros [|i] x H; discriminate H.
    + intros [H _]. destruct r; [|discriminate H]. exists []. auto.
  - cbn [loop]. split.
    + intros (l & E & <-). destruct (loop m _ []) as [l1| | |] eqn:E1; cbn [rbind] in E; try discriminate E.
      destruct (f (Z.of_nat m)) as [d| | |] eqn:Ef; cbn [rbind] in E; try discriminate E. inversion E; subst l.
      destruct (proj1 (IH l1)) as [L1 H1]; [exists l1; auto|]. rewrite app_length, L1. cbn [length]. split; [lia|].
      intros i x Hx. destruct (Nat.lt_ge_cases i m) as [Hi|Hi].
      * rewrite nth_error_app1 in Hx by lia. auto.
      * rewrite nth_error_app2 in Hx by lia. destruct (i - length l1)%nat eqn:Q; [|destruct n0; discriminate Hx].
        cbn in Hx. inversion Hx; subst x. replace i with m by lia. exact Ef.
    + intros [L H]. destruct (rev r) as [|z q] eqn:Er.
      { apply (f_equal (@length X)) in Er. rewrite rev_length in Er. cbn in Er. lia. }
      assert (Hr : r = rev q ++ [z]) by (rewrite <- (rev_involutive r), Er; reflexivity). subst r.
      assert (Lq : length (rev q) = m) by (rewrite app_length in L; cbn [length] in L; lia).
      destruct (proj2 (IH (rev q))) as (l1 & E1 & ->).
      { split; auto. intros i x Hx. apply H. rewrite nth_error_app1; auto. apply nth_error_Some. congruence. }
      rewrite E1. cbn [rbind].
      rewrite (H m z) by (rewrite nth_error_app2 by lia; replace (m - length (rev q))%nat with O by lia; reflexivity).
      cbn [rbind]. eexists. split; reflexivity.
Qed.

Lemma bc_size_right m i s : 0 <= i < Z.of_nat m -> (length s <= m)%nat ->
  bc_size (Z.of_nat m) i s = extent_from_right s (m - 1 - Z.to_nat i).
Proof.
  intros Hi Hl. unfold bc_size, extent_from_right, zlen.
  destruct (0 <=? Z.of_nat (length s) - Z.of_nat m + i) eqn:Q.
  - rewrite rev_nth by lia. replace (length s - S (m - 1 - Z.to_nat i))%nat with (Z.to_nat (Z.of_nat (length s) - Z.of_nat m + i)) by lia.
    apply nth_indep. lia.
  - rewrite nth_overflow; auto. rewrite rev_length. lia.
Qed.
Lemma bc_each (size : list Z -> Z) shapes d : forall out,
  each shapes (fun shape out =>
    if negb (size shape =? 1)
    then if out =? 1 then ROk (size shape) else if negb (out =? size shape) then RAbort else ROk out
    else ROk out) out = ROk d <->
  (out = 1 \/ out = d) /\ (forall s, In s shapes -> size s = 1 \/ size s = d) /\ (d = out \/ exists s, In s shapes /\ size s = d).
Proof.
  induction shapes as [|s r IH]; intro out; cbn [each].
  - split.
    + intro E; inversion E; subst. repeat split; auto. intros s [].
    + intros (_ & _ & [->|(s & [] & _)]). reflexivity.
  - destruct (size s =? 1) eqn:Q1; cbn [negb].
    + cbn [rbind]. rewrite IH. split.
      * intros (a & b & c). split; [auto|]. split; [intros x [<-|Hx]; auto; lia|]. destruct c as [|(x & Hx & E)]; eauto 6. right. exists x. split; [right; auto|auto].
      * intros (a & b & c). split; [auto|]. split; [intros x Hx; apply b; right; auto|].
        destruct c as [c|(x & [<-|Hx] & E)]; auto; [|right; eauto].
        left. destruct a; lia.
    + destruct (out =? 1) eqn:Q2.
      * cbn [rbind]. rewrite IH. split.
        -- intros (a & b & c). assert (size s = d) by lia. split; [lia|]. split; [intros x [<-|Hx]; auto|].
           right. exists s. split; [left; auto|auto].
        -- intros (a & b & c). assert (Hs : size s = d) by (destruct (b s (or_introl eq_refl)); lia).
           split; [auto|]. split; [intros x Hx; apply b; right; auto|]. left; lia.
      * destruct (out =? size s) eqn:Q3; cbn [negb rbind].
        -- rewrite IH. split.
           ++ intros (a & b & c). split; [auto|]. split; [intros x [<-|Hx]; auto; lia|].
              destruct c as [|(x & Hx & E)]; auto. right. exists x. split; [right; auto|auto].
           ++ intros (a & b & c). split; [auto|]. split; [intros x Hx; apply b; right; auto|]. lia.
        -- split; [discriminate|]. intros (a & b & c). exfalso. destruct (b s (or_introl eq_refl)); lia.
Qed.
Lemma each_abort {X S} (l : list X) (body : X -> S -> res S) : (forall x s, body x s = RAbort \/ exists s', body x s = ROk s') ->
  forall s, each l body s = RAbort \/ exists s', each l body s = ROk s'.
Proof.
  intro H. induction l as [|x r IH]; intro s; cbn [each]; [right; eauto|].
  destruct (H x s) as [->|(s' & ->)]; cbn [rbind]; auto.
Qed.
Lemma loop_abort {S} (body : Z -> S -> res S) : (forall x s, body x s = RAbort \/ exists s', body x s = ROk s') ->
  forall n s, loop n body s = RAbort \/ exists s', loop n body s = ROk s'.
Proof.
  intros H n s. induction n as [|n IH]; cbn [loop]; [right; eauto|].
  destruct IH as [->|(s' & ->)]; cbn [rbind]; auto.
Qed.
Lemma broadcast_shapes_total shapes : broadcast_shapes shapes = RAbort \/ exists r, broadcast_shapes shapes = ROk r.
Proof.
  unfold broadcast_shapes. destruct shapes as [|s0 ss]; [right; eauto|]. cbv zeta. unfold zloop.
  apply loop_abort. intros i s.
  assert (H : bc_dim (bc_max_dims (s0 :: ss)) i (s0 :: ss) = RAbort \/ exists d, bc_dim (bc_max_dims (s0 :: ss)) i (s0 :: ss) = ROk d).
  { unfold bc_dim. apply each_abort.
    intros x o. cbv zeta. destruct (negb _); [destruct (o =? 1); [eauto|destruct (negb _); eauto]|eauto]. }
  destruct H as [->|(d & ->)]; cbn [rbind]; eauto.
Qed.
Lemma max_dims_spec (shapes : list (list Z)) : forall m, 0 <= m -> let M := fold_left (fun m shape => Z.max m (zlen shape)) shapes m in
  m <= M /\ (forall s, In s shapes -> zlen s <= M) /\ (M = m \/ exists s, In s shapes /\ zlen s = M).
Proof.
  induction shapes as [|s r IH]; intros m Hm; cbn [fold_left]; cbv zeta.
  - split; [lia|]. split; [intros s []|auto].
  - destruct (IH (Z.max m (zlen s)) ltac:(lia)) as (a & b & c). split; [lia|]. split.
    + intros x [<-|Hx]; [lia|auto].
    + destruct c as [c|(x & Hx & E)].
      * destruct (Z.max_spec m (zlen s)) as [[Hlt E]|[Hle E]].
        -- right. exists s. split; [left; auto|lia].
        -- left. lia.
      * right. exists x. split; [right; auto|auto].
Qed.
Theorem broadcast_shapes_spec shapes r : shapes <> [] -> (broadcast_shapes shapes = ROk r <-> is_broadcast shapes r).
Proof.
  intro Hne. destruct shapes as [|s0 ss]; [congruence|]. unfold broadcast_shapes. remember (s0 :: ss) as shapes eqn:Hshapes.
  replace (match shapes with [] => ROk [] | _ :: _ => let max_dims := bc_max_dims shapes in
     zloop max_dims (fun i out => do d <- bc_dim max_dims i shapes; ROk (out ++ [d])) [] end) with
     (zloop (bc_max_dims shapes) (fun i out => do d <- bc_dim (bc_max_dims shapes) i shapes; ROk (out ++ [d])) [])
     by (rewrite Hshapes; reflexivity).
  destruct (max_dims_spec shapes 0 ltac:(lia)) as (M0 & M1 & M2). cbv zeta in *. fold (bc_max_dims shapes) in *.
  set (M := bc_max_dims shapes) in *.
  assert (Mex : exists s, In s shapes /\ zlen s = M).
  { destruct M2 as [E|]; auto. exists s0. assert (In s0 shapes) by (subst shapes; left; auto). split; auto.
    assert (B := M1 s0 H). unfold zlen in *. lia. }
  set (m := Z.to_nat M).
  assert (Hdim : forall i d, (i < m)%nat -> bc_dim M (Z.of_nat i) shapes = ROk d <->
     (forall s, In s shapes -> extent_from_right s (m - 1 - i) = 1 \/ extent_from_right s (m - 1 - i) = d) /\
     (exists s, In s shapes /\ extent_from_right s (m - 1 - i) = d)).
  { intros i d Hi. unfold bc_dim. cbv zeta. rewrite (bc_each (bc_size M (Z.of_nat i)) shapes d 1).
    assert (Hs : forall s, In s shapes -> bc_size M (Z.of_nat i) s = extent_from_right s (m - 1 - i)).
    { intros s Hin. assert (B := M1 s Hin). replace M with (Z.of_nat m) by lia.
      rewrite bc_size_right by (unfold zlen in B; lia). f_equal. lia. }
    split.
    - intros (a & b & c). split; [intros s Hin; rewrite <- Hs by auto; auto|].
      destruct c as [c|(s & Hin & E)]; [|exists s; rewrite <- Hs; auto].
      exists s0. assert (Hin : In s0 shapes) by (subst shapes; left; auto). split; auto. rewrite <- Hs by auto.
      destruct (b s0 Hin); lia.
    - intros (b & s & Hin & E). split; [|split].
      + lia.
      + intros x Hx. rewrite Hs by auto. auto.
      + right. exists s. rewrite Hs; auto. }
  assert (ZL := zloop_list M (fun i => bc_dim M i shapes) r).
  assert (Hlhs : zloop M (fun i out => do d <- bc_dim M i shapes; ROk (out ++ [d])) [] = ROk r <->
     exists l, zloop M (fun i out => do d <- bc_dim M i shapes; ROk (out ++ [d])) [] = ROk l /\ l = r).
  { split; [intro E; exists r; auto|intros (l & E & ->); auto]. }
  rewrite Hlhs, ZL. fold m. split.
  - intros [L H]. split; [|split].
    + intros s Hin. assert (B := M1 s Hin). unfold zlen in B. lia.
    + destruct Mex as (s & Hin & E). exists s. split; auto. unfold zlen in E. lia.
    + intros k Hk. set (i := (m - 1 - k)%nat). destruct (nth_error r i) as [d|] eqn:En.
      2:{ apply nth_error_None in En. lia. }
      assert (Hd := H i d En). apply Hdim in Hd; [|lia]. replace (m - 1 - i)%nat with k in Hd by lia.
      assert (Ed : extent_from_right r k = d).
      { unfold extent_from_right. rewrite rev_nth by lia. replace (length r - S k)%nat with i by lia.
        apply nth_error_nth with (d := 1) in En. exact En. }
      rewrite Ed. exact Hd.
  - intros (I1 & (s1 & Hin1 & Es1) & I3).
    assert (L : length r = m).
    { destruct Mex as (s & Hin & E). assert (B1 := I1 s Hin). assert (B2 := M1 s1 Hin1). unfold zlen in *. lia. }
    split; auto. intros i d En. assert (Hi : (i < m)%nat) by (rewrite <- L; apply nth_error_Some; congruence).
    apply Hdim; auto. destruct (I3 (m - 1 - i)%nat ltac:(lia)) as [J1 J2].
    assert (Ed : extent_from_right r (m - 1 - i) = d).
    { unfold extent_from_right. rewrite rev_nth by lia. replace (length r - S (m - 1 - i))%nat with i by lia.
      apply nth_error_nth with (d := 1) in En. exact En. }
    rewrite Ed in *. auto.
Qed.

(* ---------------- padded shapes ---------------- *)
Lemma nth_repeat_lt {X} (x d : X) k i : (i < k)%nat -> nth i (repeat x k) d = x.
Proof. revert i. induction k as [|k IH]; intros [|i] H; cbn [repeat nth]; auto; try lia. apply IH. lia. Qed.
Lemma nth_firstn_lt {X} (l : list X) k i d : (i < k)%nat -> nth i (firstn k l) d = nth i l d.
Proof. revert k i. induction l as [|x l IH]; intros [|k] [|i] H; cbn [firstn nth]; auto; try lia. apply IH. lia. Qed.
Lemma nth_skipn_add {X} (l : list X) k i d : nth i (skipn k l) d = nth (k + i) l d.
Proof. revert k. induction l as [|x l IH]; intros [|k]; cbn [skipn nth Nat.add]; auto. destruct i; auto. Qed.
Lemma pad_length n s : (length s <= n)%nat -> length (pad_shape n s) = n.
Proof. intro H. unfold pad_shape. rewrite app_length, repeat_length. lia. Qed.
Lemma pad_nth n s i : (length s <= n)%nat -> (i < n)%nat -> nth i (pad_shape n s) 0 = extent_from_right s (n - 1 - i).
Proof.
  intros H Hi. unfold pad_shape, extent_from_right.
  destruct (Nat.lt_ge_cases i (n - length s)) as [Hlt|Hge].
  - rewrite app_nth1 by (rewrite repeat_length; auto). rewrite nth_repeat_lt by auto. rewrite nth_overflow; auto. rewrite rev_length. lia.
  - rewrite app_nth2 by (rewrite repeat_length; lia). rewrite repeat_length, rev_nth by lia.
    replace (length s - S (n - 1 - i))%nat with (i - (n - length s))%nat by lia. apply nth_indep. lia.
Qed.
Lemma product_ones k : product (repeat 1 k) = 1.
Proof. induction k as [|k IH]; [reflexivity|]. cbn [repeat]. rewrite product_cons, IH. reflexivity. Qed.
Lemma pad_product n s : product (pad_shape n s) = product s.
Proof. unfold pad_shape. rewrite product_app, product_ones. lia. Qed.
Lemma pad_nonneg n s : Forall (fun d => 0 <= d) s -> Forall (fun d => 0 <= d) (pad_shape n s).
Proof.
  intro H. unfold pad_shape. apply Forall_app. split; auto. apply Forall_forall. intros x Hx. apply repeat_spec in Hx. lia.
Qed.
Lemma list_eq_nth (a b : list Z) : length a = length b -> (forall i, (i < length a)%nat -> nth i a 0 = nth i b 0) -> a = b.
Proof. intros H1 H2. apply nth_ext with (d := 0) (d' := 0); auto. Qed.

Definition bidx (shape idx : list Z) : list Z := map (fun p => if snd p =? 1 then 0 else fst p) (combine idx shape).
Lemma broadcast_index_full shape idx : length idx = length shape -> broadcast_index shape idx = bidx shape idx.
Proof. intro H. unfold broadcast_index. replace (length idx - length shape)%nat with O by lia. reflexivity. Qed.
Lemma bidx_app s1 s2 i1 i2 : length i1 = length s1 -> bidx (s1 ++ s2) (i1 ++ i2) = bidx s1 i1 ++ bidx s2 i2.
Proof.
  intro H. unfold bidx. revert s1 H. induction i1 as [|x i1 IH]; intros [|d s1] H; cbn [length] in H; try lia; [reflexivity|].
  cbn [app combine map]. f_equal. apply IH. lia.
Qed.
Lemma bidx_length s i : length i = length s -> length (bidx s i) = length s.
Proof. intro H. unfold bidx. rewrite map_length, combine_length. lia. Qed.
Lemma bidx_ones k : forall i, length i = k -> bidx (repeat 1 k) i = repeat 0 k.
Proof.
  induction k as [|k IH]; intros [|x i] H; cbn [length] in H; try lia; [reflexivity|].
  unfold bidx in *. cbn [repeat combine map fst snd]. rewrite Z.eqb_refl. f_equal. apply IH. lia.
Qed.
Lemma ravel_zeros s : ravel s (repeat 0 (length s)) = 0.
Proof. induction s as [|d s IH]; [reflexivity|]. cbn [length repeat ravel]. rewrite IH. lia. Qed.
Lemma bidx_id s i : in_shape s i -> bidx s i = i.
Proof.
  intro H. induction H as [|x d r ds Hx H IH]; [reflexivity|].
  unfold bidx in *. cbn [combine map fst snd]. rewrite IH. f_equal. destruct (d =? 1) eqn:Q; lia.
Qed.
Lemma bidx_in_shape s r i : length s = length r -> in_shape r i ->
  (forall k, (k < length s)%nat -> nth k s 0 = 1 \/ nth k s 0 = nth k r 0) -> in_shape s (bidx s i).
Proof.
  intros L H. revert s L. induction H as [|x d i ds Hx H IH]; intros [|e s] L Hk; cbn [length] in L; try lia; [constructor|].
  unfold bidx in *. cbn [combine map fst snd]. apply in_shape_cons. split.
  - destruct (Hk O ltac:(cbn; lia)) as [E|E]; cbn [nth] in E; destruct (e =? 1) eqn:Q; lia.
  - apply IH; [lia|]. intros k Hlt. apply (Hk (S k)). cbn [length]. lia.
Qed.
Lemma contiguous_inside {A} (t : tns A) j : tensor_ok t -> contiguous t -> 0 <= j < product (x_shape t) ->
  0 <= x_offset t + j < b_len (x_buf t).
Proof.
  intros Ho Hc Hj. destruct (unravel_spec (x_shape t) j (ok_dims _ Ho) Hj) as [U1 U2].
  assert (I := ok_inside _ Ho _ U1). rewrite contiguous_address in I; auto; [|apply in_shape_length; auto]. rewrite U2 in I. exact I.
Qed.
(** What broadcasting shows, as a position in the storage. *)
Lemma elem_broadcast {A} (t : tns A) n idx : tensor_ok t -> contiguous t -> (length (x_shape t) <= n)%nat -> length idx = n ->
  elem t (broadcast_index (x_shape t) idx) =
  b_at (x_buf t) (x_offset t + ravel (pad_shape n (x_shape t)) (bidx (pad_shape n (x_shape t)) idx)).
Proof.
  intros Ho Hc Hl Hi. unfold broadcast_index. set (k := (length idx - length (x_shape t))%nat).
  set (tail := skipn k idx). assert (Lt : length tail = length (x_shape t)) by (unfold tail; rewrite skipn_length; lia).
  unfold elem. rewrite contiguous_address; auto; [|rewrite map_length, combine_length; lia].
  f_equal. f_equal. unfold pad_shape. replace (n - length (x_shape t))%nat with k by lia.
  rewrite <- (firstn_skipn k idx) at 1. fold tail.
  rewrite bidx_app by (rewrite firstn_length, repeat_length; lia).
  rewrite bidx_ones by (rewrite firstn_length; lia).
  rewrite ravel_app by (rewrite !repeat_length; auto).
  replace (repeat 0 k) with (repeat 0 (length (repeat 1 k))) by (rewrite repeat_length; reflexivity).
  rewrite ravel_zeros. unfold bidx. lia.
Qed.

(* ---------------- the two operands ---------------- *)
Section Operands.
Variables sa sb r : list Z.
Hypothesis HB : is_broadcast [sa; sb] r.
Let n := length r.
Lemma op_la : (length sa <= n)%nat. Proof using HB. apply HB. left; auto. Qed.
Lemma op_lb : (length sb <= n)%nat. Proof using HB. apply HB. right; left; auto. Qed.
Lemma op_n : n = Nat.max (length sa) (length sb).
Proof using HB. assert (H1 := op_la). assert (H2 := op_lb). destruct HB as (_ & (s & [<-|[<-|[]]] & E) & _); unfold n in *; lia. Qed.
Lemma op_r_nth i : (i < n)%nat -> nth i r 0 = extent_from_right r (n - 1 - i).
Proof using Type.
  intro Hi. unfold extent_from_right. rewrite rev_nth by (fold n; lia). fold n.
  replace (n - S (n - 1 - i))%nat with i by lia. apply nth_indep. fold n. lia.
Qed.
Lemma op_nth i : (i < n)%nat ->
  let x := nth i (pad_shape n sa) 0 in let y := nth i (pad_shape n sb) 0 in let z := nth i r 0 in
  (x = 1 \/ x = z) /\ (y = 1 \/ y = z) /\ (x = z \/ y = z).
Proof using HB.
  intro Hi. cbv zeta. rewrite !pad_nth by (auto using op_la, op_lb). rewrite op_r_nth by auto.
  destruct HB as (_ & _ & H). destruct (H (n - 1 - i)%nat ltac:(fold n; lia)) as [H1 (s & [<-|[<-|[]]] & E)];
    (split; [apply H1; left; auto|]; split; [apply H1; right; left; auto|auto]).
Qed.
Definition all_ones (l : list Z) := Forall (fun d => d = 1) l.
(** When only the right operand is repeated, the result has the left one's shape. *)
Lemma op_left : (forall i, (i < n)%nat -> nth i (pad_shape n sb) 0 = 1 \/ nth i (pad_shape n sb) 0 = nth i (pad_shape n sa) 0) ->
  r = pad_shape n sa.
Proof using HB.
  intro H. apply list_eq_nth; [rewrite pad_length by apply op_la; reflexivity|].
  intros i Hi. destruct (op_nth i Hi) as (a & b & c). cbv zeta in *. destruct (H i Hi) as [E|E]; lia.
Qed.
End Operands.
Lemma nth_repeat_one k i : nth i (repeat 1 k) 1 = 1.
Proof. revert i. induction k as [|k IH]; intros [|i]; cbn; auto. Qed.
Lemma one_element_pad n s : (length s <= n)%nat -> one_element s -> pad_shape n s = repeat 1 n.
Proof.
  intros Hl H. apply list_eq_nth; [rewrite pad_length, repeat_length; auto|].
  intros i Hi. rewrite pad_length in Hi by auto. rewrite pad_nth by auto. rewrite H.
  rewrite (nth_indep _ 0 1) by (rewrite repeat_length; auto). symmetry. apply nth_repeat_one.
Qed.
Lemma same_extents_pad n a b : (length a <= n)%nat -> (length b <= n)%nat -> same_extents a b -> pad_shape n a = pad_shape n b.
Proof.
  intros Ha Hb H. apply list_eq_nth; [rewrite !pad_length; auto|].
  intros i Hi. rewrite pad_length in Hi by auto. rewrite !pad_nth by auto. apply H.
Qed.
Lemma one_repeated_pad n a b : (length a <= n)%nat -> (length b <= n)%nat -> one_repeated a b ->
  pad_shape n a = pad_shape n b \/
  exists P x Q, pad_shape n a = P ++ x :: Q /\ pad_shape n b = P ++ 1 :: Q.
Proof.
  intros Ha Hb (k & E & H). destruct (Nat.lt_ge_cases k n) as [Hk|Hk].
  - right. set (i := (n - 1 - k)%nat).
    exists (firstn i (pad_shape n a)), (nth i (pad_shape n a) 0), (skipn (S i) (pad_shape n a)).
    assert (La := pad_length n a Ha). assert (Lb := pad_length n b Hb).
    split; [apply list_at; lia|].
    apply list_eq_nth; [rewrite app_length; cbn [length]; rewrite firstn_length, skipn_length; lia|].
    intros j Hj. rewrite Lb in Hj. rewrite pad_nth by auto.
    destruct (lt_eq_lt_dec j i) as [[Hlt| ->]|Hgt].
    + rewrite app_nth1 by (rewrite firstn_length; lia). rewrite nth_firstn_lt by auto.
      rewrite pad_nth by auto. symmetry. apply H. lia.
    + rewrite nth_mid by (rewrite firstn_length; lia). replace (n - 1 - i)%nat with k by lia. exact E.
    + rewrite app_nth2 by (rewrite firstn_length; lia). rewrite firstn_length, La, Nat.min_l by lia.
      replace (j - i)%nat with (S (j - S i)) by lia. cbn [nth]. rewrite nth_skipn_add.
      replace (S i + (j - S i))%nat with j by lia. rewrite pad_nth by auto. symmetry. apply H. lia.
  - left. apply same_extents_pad; auto. intro j. destruct (Nat.eq_dec j k) as [->|Hne]; [|apply H; auto].
    unfold extent_from_right. rewrite !nth_overflow; auto; rewrite rev_length; lia.
Qed.

(* ---------------- calculateBroadcastInfo for one repeated dimension ---------------- *)
Lemma common_prefix_app P x y Q R : x <> y -> common_prefix (P ++ x :: Q) (P ++ y :: R) = length P.
Proof.
  intro H. induction P as [|p P IH]; cbn [app common_prefix length].
  - replace (x =? y) with false by lia. reflexivity.
  - rewrite Z.eqb_refl, IH. reflexivity.
Qed.
Lemma map_max_same l : map (fun p => Z.max (fst p) (snd p)) (combine l l) = l.
Proof. induction l as [|x l IH]; [reflexivity|]. cbn [combine map fst snd]. rewrite IH, Z.max_id. reflexivity. Qed.
Lemma combine_app_eq {X} (a b c d : list X) : length a = length c -> combine (a ++ b) (c ++ d) = combine a c ++ combine b d.
Proof. revert c. induction a as [|x a IH]; intros [|y c] H; cbn [length] in H; try lia; [reflexivity|]. cbn [app combine]. f_equal. apply IH. lia. Qed.
Lemma first_diff_same l : first_diff l l = None.
Proof. induction l as [|x l IH]; [reflexivity|]. cbn [first_diff]. rewrite Z.eqb_refl, IH. reflexivity. Qed.
Lemma forallb_same l : forallb (fun p : Z * Z => fst p =? snd p) (combine l l) = true.
Proof. induction l as [|x l IH]; [reflexivity|]. cbn [combine forallb fst snd]. rewrite Z.eqb_refl, IH. reflexivity. Qed.
Lemma info_repeated sa sb P x Q : let n := Nat.max (length sa) (length sb) in
  pad_shape n sa = P ++ x :: Q -> pad_shape n sb = P ++ 1 :: Q -> 0 <= x -> x <> 1 ->
  broadcast_info sa sb = if x =? 0 then mkBc false 0 (product P) (product P * product Q)
                         else mkBc true x (product P) (product Q).
Proof.
  intros n Ea Eb Hx0 Hx1. unfold broadcast_info. fold n. rewrite Ea, Eb.
  assert (Ln : n = (length P + S (length Q))%nat).
  { rewrite <- (pad_length n sa) by lia. rewrite Ea, app_length. reflexivity. }
  rewrite common_prefix_app by auto. rewrite combine_app_eq by auto. rewrite map_app, map_max_same. cbn [combine map fst snd].
  rewrite map_max_same.
  replace (Nat.eqb (length P) n) with false by (symmetry; apply Nat.eqb_neq; lia).
  rewrite !firstn_mid, !skipn_mid0 by auto. rewrite !numel_product.
  unfold can_naive. cbn [first_diff]. rewrite !first_diff_same.
  destruct (x =? 0) eqn:Q0.
  - replace x with 0 by lia. change (Z.max 0 1) with 1. cbn [Z.eqb Pos.eqb negb nth option_map andb].
    rewrite product_app, product_cons. f_equal. lia.
  - replace (Z.max x 1) with x by lia. rewrite Z.eqb_refl. cbn [negb option_map].
    replace (1 =? x) with false by lia. cbn [negb nth]. rewrite Z.eqb_refl. cbn [andb skipn].
    rewrite forallb_same. cbn [negb andb nth]. rewrite product_cons.
    replace (Z.quot (x * product Q) x) with (product Q) by (rewrite Z.mul_comm, Z.quot_mul; lia). reflexivity.
Qed.

(** Positions in the storage of the two operands. *)
Lemma repeated_pos P x Q p c q : in_shape P p -> in_shape Q q ->
  bidx (P ++ 1 :: Q) (p ++ c :: q) = p ++ 0 :: q /\
  ravel (P ++ 1 :: Q) (p ++ 0 :: q) = ravel P p * product Q + ravel Q q /\
  ravel (P ++ x :: Q) (p ++ c :: q) = ravel P p * (x * product Q) + c * product Q + ravel Q q.
Proof.
  intros Hp Hq. assert (L := in_shape_length _ _ Hp). split; [|split].
  - rewrite bidx_app by auto. rewrite bidx_id by auto. f_equal.
    change (bidx (1 :: Q) (c :: q)) with (0 :: bidx Q q). rewrite bidx_id by auto. reflexivity.
  - rewrite ravel_app by auto. cbn [ravel]. rewrite product_cons. ring.
  - rewrite ravel_app by auto. cbn [ravel]. rewrite product_cons. ring.
Qed.

Lemma product_one_ones l : Forall (fun d => 0 <= d) l -> product l = 1 -> all_ones l.
Proof.
  induction 1 as [|x l Hx Hl IH]; intro E; [constructor|]. rewrite product_cons in E.
  destruct (Z.eq_mul_1_nonneg x (product l) Hx E) as [-> E2]. constructor; [reflexivity|apply IH; exact E2].
Qed.
Lemma all_ones_repeat l : all_ones l -> l = repeat 1 (length l).
Proof. induction 1 as [|x l -> Hl IH]; [reflexivity|]. cbn [length repeat]. f_equal. exact IH. Qed.

Theorem ew_correct {A} ty (f : A -> A -> A) N (a b : tns A) r :
  0 < N -> tensor_ok a -> tensor_ok b -> contiguous a -> contiguous b ->
  is_broadcast [x_shape a; x_shape b] r -> ew_supported ty (x_shape a) (x_shape b) ->
  exists out, ew_op ty f N a b = ROk out /\
    produces r (fun idx => apply2 f (elem a (broadcast_index (x_shape a) idx)) (elem b (broadcast_index (x_shape b) idx))) out.
Proof.
  intros HN Oa Ob Ca Cb HB Hsup.
  set (sa := x_shape a) in *. set (sb := x_shape b) in *.
  assert (La := op_la _ _ _ HB). assert (Lb := op_lb _ _ _ HB). assert (Ln := op_n _ _ _ HB). cbv zeta in *.
  set (n := length r) in *.
  set (F := fun idx => apply2 f (elem a (broadcast_index sa idx)) (elem b (broadcast_index sb idx))).
  assert (Na : Forall (fun d => 0 <= d) sa) by apply Oa. assert (Nb : Forall (fun d => 0 <= d) sb) by apply Ob.
  (* the padded shapes *)
  assert (Cases : pad_shape n sa = pad_shape n sb \/ pad_shape n sb = repeat 1 n \/
     (ty = EwFloat32 /\ exists P x Q, x <> 1 /\ pad_shape n sa = P ++ x :: Q /\ pad_shape n sb = P ++ 1 :: Q)).
  { assert (H : ty <> EwNoKernel /\ (same_extents sa sb \/ one_element sb \/ (ty = EwFloat32 /\ one_repeated sa sb))).
    { destruct ty; cbn in Hsup; [|split; [discriminate|tauto]|tauto]. split; [discriminate|].
      destruct Hsup as [|[|]]; auto. }
    destruct H as [_ [H|[H|[Ht H]]]].
    - left. apply same_extents_pad; auto.
    - right; left. apply one_element_pad; auto.
    - destruct (one_repeated_pad n sa sb La Lb H) as [E|(P & x & Q & E1 & E2)]; auto.
      destruct (Z.eq_dec x 1) as [->|Hx]; [left; congruence|].
      right; right. split; auto. exists P, x, Q. auto. }
  assert (Hr : r = pad_shape n sa).
  { apply (op_left sa sb r HB). fold n. intros i Hi. destruct Cases as [E|[E|(_ & P & x & Q & _ & E1 & E2)]].
    - right. rewrite E. reflexivity.
    - left. rewrite E. apply nth_repeat_lt; auto.
    - rewrite E1, E2. destruct (lt_eq_lt_dec i (length P)) as [[Hlt| ->]|Hgt].
      + right. rewrite !app_nth1 by auto. reflexivity.
      + left. rewrite nth_mid; auto.
      + right. rewrite !app_nth2 by lia. destruct (i - length P)%nat eqn:Q1; [lia|reflexivity]. }
  assert (Lr : (1 <= length r <= 16)%nat).
  { fold n. rewrite Ln. assert (R1 := ok_rank _ Oa). assert (R2 := ok_rank _ Ob). fold sa in R1. fold sb in R2. lia. }
  assert (Nr : Forall (fun d => 0 <= d) r) by (rewrite Hr; apply pad_nonneg; auto).
  assert (Pr : product r = product sa) by (rewrite Hr; apply pad_product).
  unfold ew_op. fold sa sb. rewrite (proj2 (broadcast_shapes_spec [sa; sb] r ltac:(discriminate)) HB). cbn [rbind].
  replace (match r with [] => sa | _ => r end) with r by (destruct r; [cbn in Lr; lia|reflexivity]).
  rewrite fresh_ok by auto. cbn [rbind]. unfold ew_forward. fold sa sb.
  assert (Hty : ty <> EwNoKernel) by (intros ->; exact Hsup).
  unfold x_shape at 1. cbn [x_view v_shape x_buf]. unfold x_offset at 3 6 8. cbn [x_view v_offset]. rewrite !numel_product.
  set (info := broadcast_info sa sb).
  assert (Hp := product_nonneg r Nr).
  (* what is prescribed at a position *)
  assert (HF : forall idx, in_shape r idx -> at_pos r F (ravel r idx) =
     apply2 f (b_at (x_buf a) (x_offset a + ravel r idx))
              (b_at (x_buf b) (x_offset b + ravel (pad_shape n sb) (bidx (pad_shape n sb) idx)))).
  { intros idx Hi. rewrite at_pos_ravel by auto. unfold F.
    assert (Li : length idx = n) by (apply in_shape_length; auto).
    unfold sa, sb. rewrite (elem_broadcast a n idx), (elem_broadcast b n idx) by auto. fold sa sb.
    rewrite <- Hr. rewrite bidx_id by auto. reflexivity. }
  assert (Hina : forall j, 0 <= j < product r -> 0 <= x_offset a + j < b_len (x_buf a)).
  { intros j Hj. apply contiguous_inside; auto. fold sa. lia. }
  assert (Hinb : forall j, 0 <= j < product sb -> 0 <= x_offset b + j < b_len (x_buf b)).
  { intros j Hj. apply contiguous_inside; auto. }
  assert (Final : forall (P : Z -> Prop) o', good (at_pos r F) P (mkBuf (product r) (fun _ => None)) o' ->
     (forall pos, 0 <= pos < product r -> P pos) ->
     produces r F (mkTns (mkV r (default_strides r) 0) o')).
  { intros P o' G H. eapply produces_good; eauto. }
  assert (Same : product sa = product sb -> 0 < product r -> pad_shape n sa = pad_shape n sb).
  { intros Ep Hpos. destruct Cases as [E|[E|(_ & P & x & Q & Hx & E1 & E2)]]; auto.
    - assert (product sb = 1) by (rewrite <- (pad_product n), E; apply product_ones).
      assert (O := product_one_ones (pad_shape n sa) (pad_nonneg n sa Na) ltac:(rewrite pad_product; lia)).
      apply all_ones_repeat in O. rewrite O, E, pad_length by auto. reflexivity.
    - exfalso. rewrite <- (pad_product n sa), <- (pad_product n sb), E1, E2, !product_app, !product_cons in Ep.
      rewrite Hr, E1, product_app, product_cons in Hpos. nia. }
  (* element against element *)
  assert (EqCase : product sa = product sb ->
     exists out, (do o <- ew_impl f N (x_buf a) (x_offset a) (x_buf b) (x_offset b) 0 (product r) (mkBuf (product r) (fun _ => None));
                  ROk (mkTns (mkV r (default_strides r) 0) o)) = ROk out /\ produces r F out).
  { intro Ep. destruct (ew_impl_good (at_pos r F) f N (x_buf a) (x_offset a) (x_buf b) (x_offset b) 0 (product r)
      (mkBuf (product r) (fun _ => None))) as (o' & E' & G'); auto.
    - intro Hpos. assert (I0 := Hina 0). assert (I := Hina (product r - 1)). lia.
    - intro Hpos. assert (I0 := Hinb 0). assert (I := Hinb (product r - 1)). lia.
    - intros _. cbn [b_len]. lia.
    - intros j Hj. cbn [Z.add]. destruct (unravel_spec r j Nr Hj) as [U1 U2].
      replace (at_pos r F j) with (at_pos r F (ravel r (unravel r j))) by (rewrite U2; reflexivity).
      rewrite HF by auto. rewrite U2. f_equal. f_equal. f_equal.
      rewrite <- (Same Ep) by lia. rewrite <- Hr. rewrite bidx_id by auto. symmetry; exact U2.
    - rewrite E'. cbn [rbind]. eexists. split; [reflexivity|]. eapply Final; [exact G'|]. intros pos Hpos; cbn beta; lia. }
  (* a single element on the right *)
  assert (SclCase : product sb = 1 -> forall y, y = b_at (x_buf b) (x_offset b) ->
     exists out, (do o <- ew_scl_impl f N (x_buf a) (x_offset a) y 0 (product r) (mkBuf (product r) (fun _ => None));
                  ROk (mkTns (mkV r (default_strides r) 0) o)) = ROk out /\ produces r F out).
  { intros Ep y ->. destruct (ew_scl_impl_good (at_pos r F) f N (x_buf a) (x_offset a) (b_at (x_buf b) (x_offset b)) 0 (product r)
      (mkBuf (product r) (fun _ => None))) as (o' & E' & G'); auto.
    - intro Hpos. assert (I0 := Hina 0). assert (I := Hina (product r - 1)). lia.
    - intros _. cbn [b_len]. lia.
    - intros j Hj. cbn [Z.add]. destruct (unravel_spec r j Nr Hj) as [U1 U2].
      replace (at_pos r F j) with (at_pos r F (ravel r (unravel r j))) by (rewrite U2; reflexivity).
      rewrite HF by auto. rewrite U2. f_equal. f_equal.
      assert (O := product_one_ones (pad_shape n sb) (pad_nonneg n sb Nb) ltac:(rewrite pad_product; lia)).
      apply all_ones_repeat in O. rewrite pad_length in O by auto. rewrite O.
      rewrite bidx_ones by (rewrite unravel_length; reflexivity).
      replace (repeat 0 n) with (repeat 0 (length (repeat 1 n))) by (rewrite repeat_length; reflexivity).
      rewrite ravel_zeros. lia.
    - rewrite E'. cbn [rbind]. eexists. split; [reflexivity|]. eapply Final; [exact G'|]. intros pos Hpos; cbn beta; lia. }
  assert (Goal2 : ty = EwFloat32 -> product sa <> product sb -> product sb <> 1 ->
     exists out, (if bi_naive info
        then do o <- zloop (bi_batch info) (fun batch o => zloop (bi_loops info) (fun l o =>
                   ew_impl f N (x_buf a) (x_offset a + (batch * bi_loops info * bi_size info + l * bi_size info))
                     (x_buf b) (x_offset b + batch * bi_size info)
                     (0 + (batch * bi_loops info * bi_size info + l * bi_size info)) (bi_size info) o) o)
                   (mkBuf (product r) (fun _ => None));
             ROk (mkTns (mkV r (default_strides r) 0) o)
        else ROk (mkTns (mkV r (default_strides r) 0) (mkBuf (product r) (fun _ => None)))) = ROk out /\ produces r F out).
  { intros _ Hne H1. destruct Cases as [E|[E|(_ & P & x & Q & Hx & E1 & E2)]].
    { exfalso. apply Hne. rewrite <- (pad_product n sa), E. apply pad_product. }
    { exfalso. apply H1. rewrite <- (pad_product n), E. apply product_ones. }
    assert (Nx : Forall (fun d => 0 <= d) P /\ 0 <= x /\ Forall (fun d => 0 <= d) Q).
    { rewrite Hr, E1 in Nr. apply Forall_app in Nr as [N1 N2]. inversion N2; auto. }
    destruct Nx as (NP & Nx & NQ).
    assert (PP := product_nonneg P NP). assert (PQ := product_nonneg Q NQ).
    unfold info. rewrite (info_repeated sa sb P x Q) by (auto; rewrite <- Ln; auto).
    assert (Er : r = P ++ x :: Q) by congruence.
    assert (Epr : product r = product P * (x * product Q)) by (rewrite Er, product_app, product_cons; reflexivity).
    assert (Epb : product sb = product P * product Q).
    { rewrite <- (pad_product n sb), E2, product_app, product_cons. ring. }
    destruct (x =? 0) eqn:Q0.
    - cbn [bi_naive]. eexists. split; [reflexivity|]. eapply Final; [apply good_refl|].
      intros pos Hpos. exfalso. nia.
    - cbn [bi_naive bi_batch bi_loops bi_size].
      destruct (good_loop (at_pos r F) (product P)
        (fun batch pos => exists l, 0 <= l < x /\ batch * x * product Q + l * product Q <= pos < batch * x * product Q + l * product Q + product Q)
        (fun batch o => zloop x (fun l o =>
                   ew_impl f N (x_buf a) (x_offset a + (batch * x * product Q + l * product Q))
                     (x_buf b) (x_offset b + batch * product Q)
                     (0 + (batch * x * product Q + l * product Q)) (product Q) o) o)
        (mkBuf (product r) (fun _ => None)) (product r) eq_refl) as (o' & E' & G').
      { intros batch b0 Hb Hb0.
        apply (good_loop (at_pos r F) x
          (fun l pos => batch * x * product Q + l * product Q <= pos < batch * x * product Q + l * product Q + product Q)
          _ b0 (product r) Hb0).
        intros l b1 Hl Hb1.
        assert (Bnd : 0 < product Q -> 0 <= batch * x * product Q + l * product Q /\
           batch * x * product Q + l * product Q + product Q <= product r).
        { intro HQ. rewrite Epr. split; [nia|].
          assert (batch * x + l + 1 <= product P * x) by nia. nia. }
        destruct (ew_impl_good (at_pos r F) f N (x_buf a) (x_offset a + (batch * x * product Q + l * product Q))
                     (x_buf b) (x_offset b + batch * product Q)
                     (0 + (batch * x * product Q + l * product Q)) (product Q) b1) as (b2 & E3 & G3); auto.
        - intro HQ. destruct (Bnd HQ) as [B1 B2].
          assert (I1 := Hina (batch * x * product Q + l * product Q) ltac:(lia)).
          assert (I2 := Hina (batch * x * product Q + l * product Q + product Q - 1) ltac:(lia)). lia.
        - intro HQ. assert (batch * product Q + product Q <= product sb) by (rewrite Epb; nia).
          assert (I1 := Hinb (batch * product Q) ltac:(nia)).
          assert (I2 := Hinb (batch * product Q + product Q - 1) ltac:(nia)). lia.
        - intro HQ. rewrite Hb1. destruct (Bnd HQ). lia.
        - intros j Hj. destruct (Bnd ltac:(lia)) as [B1 B2].
          destruct (unravel_spec P batch NP Hb) as [U1 U2]. destruct (unravel_spec Q j NQ Hj) as [V1 V2].
          destruct (repeated_pos P x Q (unravel P batch) l (unravel Q j) U1 V1) as (R1 & R2 & R3).
          assert (I : in_shape r (unravel P batch ++ l :: unravel Q j)).
          { rewrite Er. apply in_shape_app; [rewrite unravel_length; auto|]. split; auto. apply in_shape_cons. auto. }
          assert (Epos : 0 + (batch * x * product Q + l * product Q) + j = ravel r (unravel P batch ++ l :: unravel Q j)).
          { rewrite Er, R3, U2, V2. ring. }
          rewrite Epos, HF by auto. rewrite E2, R1, R2, U2, V2, <- Epos. f_equal; f_equal; ring.
        - exists b2. split; [exact E3|exact G3]. }
      rewrite E'. cbn [rbind]. eexists. split; [reflexivity|]. eapply Final; [exact G'|].
      intros pos Hpos. cbn beta. destruct (unravel_spec r pos Nr Hpos) as [U1 U2].
      assert (U1' := U1). rewrite Er in U1'.
      assert (HQ : 0 < product Q) by nia. assert (Hx0 : 0 < x) by lia.
      exists (pos / (x * product Q)). assert (M1 := Z_div_mod_eq_full pos (x * product Q)).
      assert (M2 := Z.mod_pos_bound pos (x * product Q) ltac:(nia)).
      split; [split; [apply Z.div_pos; nia|apply Z.div_lt_upper_bound; nia]|].
      set (w := pos mod (x * product Q)) in *. exists (w / product Q).
      assert (M3 := Z_div_mod_eq_full w (product Q)). assert (M4 := Z.mod_pos_bound w (product Q) HQ).
      split; [split; [apply Z.div_pos; lia|apply Z.div_lt_upper_bound; lia]|]. lia. }
  destruct (product sa =? product sb) eqn:Q1.
  { assert (Ep : product sa = product sb) by lia. destruct (EqCase Ep) as (out & E & H). destruct ty; try congruence; exists out; split; auto. }
  destruct (product sb =? 1) eqn:Q2.
  { assert (Ep : product sb = 1) by lia. assert (Ld := load_ok (x_buf b) (x_offset b) ltac:(assert (I := Hinb 0 ltac:(lia)); lia)).
    destruct (SclCase Ep _ eq_refl) as (out & E & H).
    destruct ty; try congruence; rewrite Ld; cbn [rbind]; exists out; split; auto. }
  destruct ty; try congruence.
  - destruct (Goal2 eq_refl ltac:(lia) ltac:(lia)) as (out & E & H). exists out. split; auto.
  - exfalso. destruct Cases as [E|[E|(E & _)]].
    + assert (product sa = product sb) by (rewrite <- (pad_product n sa), E; apply pad_product). lia.
    + assert (product sb = 1) by (rewrite <- (pad_product n), E; apply product_ones). lia.
    + discriminate E.
Qed.
