(** Proofs about reductions, part 1: the kernel. *)
From Verif Require Import Base DTypeModel ParamModel ParamSpec ParamProofs TensorModel TensorSpec TensorProofs TensorSplit
  OpsModel OpsSpec OpsProofs OpsIndex OpsMask OpsSort OpsSum RedModel RedSpec.
Local Open Scope Z_scope.

Section Semigroup.
Context {A : Type} (zero : A) (op : A -> A -> A).
Hypothesis Assoc : forall x y z, op x (op y z) = op (op x y) z.
Hypothesis Comm : forall x y, op x y = op y x.
Notation F := (across zero op).
Lemma fold_op l : forall a b, fold_left op l (op a b) = op a (fold_left op l b).
Proof using Assoc. induction l as [|x l IH]; intros a b; cbn [fold_left]; [reflexivity|]. rewrite <- Assoc. apply IH. Qed.
Lemma across_app a b : a <> [] -> b <> [] -> F (a ++ b) = op (F a) (F b).
Proof using Assoc.
  destruct a as [|x a]; [congruence|]. destruct b as [|y b]; [congruence|]. intros _ _. cbn [app across]. rewrite fold_left_app. cbn [fold_left]. apply fold_op.
Qed.
Lemma across_cons x l : l <> [] -> F (x :: l) = op x (F l).
Proof using Assoc. intro N. change (x :: l) with ([x] ++ l). rewrite across_app by (auto; congruence). reflexivity. Qed.
Lemma across_vadd a : forall b, a <> [] -> length a = length b -> F (vadd op a b) = op (F a) (F b) /\ length (vadd op a b) = length a.
Proof using Assoc Comm.
  unfold vadd. induction a as [|x a IH]; intros [|y b] N H; cbn [length] in H; try lia; try congruence.
  cbn [combine map fst snd length]. destruct a as [|x2 a].
  - destruct b; [|cbn in H; lia]. cbn. auto.
  - destruct b as [|y2 b]; [cbn in H; lia|]. destruct (IH (y2 :: b)) as [E1 E2]; [congruence|lia|]. split; [|f_equal; exact E2].
    rewrite across_cons by (cbn; congruence). rewrite (across_cons x), (across_cons y) by congruence. rewrite E1.
    set (s := F (x2 :: a)). set (t := F (y2 :: b)). rewrite <- (Assoc x y), (Assoc y s t), (Comm y s), <- (Assoc s y t), (Assoc x s). reflexivity.
Qed.
Lemma across_halves v : (length v = 2 \/ length v = 4)%nat -> halves zero op v = F v.
Proof using Assoc Comm.
  intro L. unfold halves.
  assert (P : forall a b, a <> [] -> length a = length b -> F (vadd op b a) = F (a ++ b)).
  { intros a b N E. destruct (across_vadd b a) as [E1 _]; [destruct a, b; cbn in E; congruence|lia|].
    rewrite E1, across_app; [apply Comm|exact N|destruct a, b; cbn in E; congruence]. }
  set (h := Nat.div (length v) 2).
  assert (H : (h = 1 \/ h = 2)%nat /\ length v = (h + h)%nat) by (unfold h; destruct L as [-> | ->]; cbn; lia).
  rewrite P, firstn_skipn; [reflexivity| |].
  - assert (length (firstn h v) = h) by (rewrite firstn_length; lia). intro Q. rewrite Q in *. cbn in *. lia.
  - rewrite firstn_length, skipn_length. lia.
Qed.

(** The kernel on a lane of values, for any number of lanes. *)
Lemma arm_run_spec (sop : A -> A -> res A) (hred : list A -> A) N (x : buf A) p stride (vals : list A) :
  0 < N -> (forall v, length v = Z.to_nat N -> hred v = F v) ->
  (forall j, 0 <= j < zlen vals -> load x (p + j * stride) = ROk (nth_error vals (Z.to_nat j))) ->
  (forall j y, (1 <= j)%nat -> nth_error vals j = Some y -> sop (F (firstn j vals)) y = ROk (op (F (firstn j vals)) y)) ->
  arm_run zero op sop hred N x p stride (zlen vals) = ROk (F vals).
Proof using Assoc Comm.
  intros HN HR HL HS. unfold arm_run. set (size := zlen vals) in *. assert (Hs : 0 <= size) by (unfold size, zlen; lia).
  destruct (size =? 0) eqn:Q0.
  { assert (vals = []) as -> by (destruct vals; auto; unfold size, zlen in Q0; cbn in Q0; lia). reflexivity. }
  (* the scalar loop, from any position on *)
  assert (SC : forall from (ld : Z -> Z), 1 <= from <= size -> (forall j, 0 <= j < size - from -> load x (ld j) = ROk (nth_error vals (Z.to_nat (from + j)))) ->
    zloop (size - from) (fun j acc => do w <- load x (ld j); do w <- need w; sop acc w) (F (firstn (Z.to_nat from) vals)) = ROk (F vals)).
  { intros from ld Hf Hld.
    destruct (zloop_inv (fun j acc => acc = F (firstn (Z.to_nat (from + j)) vals)) (size - from)
       (fun j acc => do w <- load x (ld j); do w <- need w; sop acc w) (F (firstn (Z.to_nat from) vals))) as (r & E & Hr).
    - lia.
    - rewrite Z.add_0_r. reflexivity.
    - intros j s Hj ->. rewrite Hld by lia. cbn [rbind].
      destruct (nth_error vals (Z.to_nat (from + j))) as [w|] eqn:Ew; [|apply nth_error_None in Ew; unfold size, zlen in *; lia].
      cbn [need rbind]. rewrite HS by (auto; lia). eexists. split; [reflexivity|].
      replace (from + (j + 1)) with ((from + j) + 1) by ring. rewrite (firstn_seg vals (from + j) 1) by lia.
      assert (SK : seg vals (from + j) 1 = [w]).
      { unfold seg. assert (SK : skipn (Z.to_nat (from + j)) vals = w :: skipn (S (Z.to_nat (from + j))) vals).
        { clear - Ew. revert Ew. generalize (Z.to_nat (from + j)) as k. induction vals as [|y m IH]; intros [|k] Ew; cbn in *; try discriminate; [congruence|]. apply IH; auto. }
        rewrite SK. reflexivity. }
      rewrite SK, across_app; [reflexivity| |congruence].
      assert (L : length (firstn (Z.to_nat (from + j)) vals) = Z.to_nat (from + j)) by (rewrite firstn_length; unfold size, zlen in *; lia).
      intro Q. rewrite Q in L. cbn in L. lia.
    - rewrite E, Hr. replace (from + (size - from)) with size by lia. unfold size, zlen. rewrite Nat2Z.id, firstn_all. reflexivity. }
  cbv zeta. set (vec := size / N * N).
  destruct ((N <=? vec) && (stride =? 1)) eqn:Q1.
  - assert (stride = 1) as -> by lia.
    assert (Hvec : N <= vec <= size). { split; [lia|]. unfold vec. assert (D := Z.mul_div_le size N HN). lia. }
    assert (Hdiv : (N | vec)) by (unfold vec; apply Z.divide_factor_r).
    clearbody vec.
    assert (LS : forall i n, 0 <= i -> 0 <= n -> i + n <= size -> load_vec x (p + i) n = ROk (seg vals i n)) by (intros; apply load_seg; auto).
    assert (E0 := LS 0 N ltac:(lia) ltac:(lia) ltac:(lia)). rewrite Z.add_0_r in E0. rewrite E0. cbn [rbind].
    set (Inv := fun i v => F v = F (firstn (Z.to_nat i) vals) /\ length v = Z.to_nat N).
    assert (Step : forall i v, N <= i -> i + N <= size -> Inv i v -> Inv (i + N) (vadd op v (seg vals i N))).
    { intros i v Hi Hin [I1 I2]. assert (L := seg_length vals i N ltac:(lia) ltac:(lia) Hin).
      destruct (across_vadd v (seg vals i N)) as [S1 S2]; [intro Q; rewrite Q in I2; cbn in I2; lia|lia|]. split; [|lia].
      rewrite S1, I1, firstn_seg, across_app; [reflexivity| | |lia|lia].
      - assert (L2 : length (firstn (Z.to_nat i) vals) = Z.to_nat i) by (rewrite firstn_length; unfold size, zlen in *; lia). intro Q. rewrite Q in L2. cbn in L2. lia.
      - intro Q. rewrite Q in L. cbn in L. lia. }
    assert (I0 : Inv N (seg vals 0 N)).
    { split; [|apply seg_length; unfold size in *; lia]. unfold seg. cbn [Z.to_nat skipn]. reflexivity. }
    set (q := (vec - N) / (4 * N)).
    assert (Hq : 0 <= q) by (apply Z.div_pos; lia).
    assert (Hq2 : q * (4 * N) <= vec - N) by (unfold q; assert (D := Z.mul_div_le (vec - N) (4 * N) ltac:(lia)); lia).
    match goal with |- context [zloop q ?b (seg vals 0 N)] => set (body := b) end.
    destruct (zloop_inv (fun u v => Inv (N + u * (4 * N)) v) q body (seg vals 0 N) Hq) as (v1 & E1 & I1).
    { rewrite Z.mul_0_l, Z.add_0_r. exact I0. }
    { intros u v Hu Iu. unfold body. set (i := N + u * (4 * N)) in *.
      assert (Bi : N <= i /\ i + 4 * N <= size) by (clear - Hu Hq2 HN Hvec i; subst i; nia).
      rewrite !LS by lia. cbn [rbind]. eexists. split; [reflexivity|].
      replace (N + (u + 1) * (4 * N)) with (i + N + N + N + N) by (unfold i; ring).
      replace (i + 2 * N) with (i + N + N) by ring. replace (i + 3 * N) with (i + N + N + N) by ring.
      apply Step; [lia|lia|]. apply Step; [lia|lia|]. apply Step; [lia|lia|]. apply Step; [lia|lia|]. exact Iu. }
    rewrite E1. cbn [rbind]. set (i := N + q * (4 * N)) in *.
    set (r := (vec - i) / N).
    assert (Hi : N <= i <= vec) by (clear - Hq Hq2 HN i; subst i; nia).
    assert (Hr : r * N = vec - i).
    { destruct Hdiv as [k Ek]. assert (Ed : vec - i = (k - 1 - 4 * q) * N) by (rewrite Ek; unfold i; ring).
      unfold r. rewrite Ed, Z.div_mul by lia. reflexivity. }
    assert (Hr0 : 0 <= r) by (unfold r; apply Z.div_pos; lia).
    match goal with |- context [zloop r ?b v1] => set (body2 := b) end.
    destruct (zloop_inv (fun u v => Inv (i + u * N) v) r body2 v1 Hr0) as (v2 & E2 & I2).
    { rewrite Z.mul_0_l, Z.add_0_r. exact I1. }
    { intros u v Hu Iu. unfold body2. assert (Bu : N <= i + u * N /\ i + u * N + N <= size) by (clear - Hu Hr Hi Hvec HN; nia).
      rewrite LS by lia. cbn [rbind]. eexists. split; [reflexivity|]. replace (i + (u + 1) * N) with (i + u * N + N) by ring.
      apply Step; [lia|lia|]. exact Iu. }
    rewrite E2. cbn [rbind]. destruct I2 as [S2 L2]. replace (i + r * N) with vec in S2 by lia.
    rewrite HR by exact L2. rewrite S2. apply SC; [lia|]. intros j Hj. assert (H := HL (vec + j)). rewrite Z.mul_1_r in H. apply H. lia.
  - assert (E0 := HL 0 ltac:(lia)). rewrite Z.mul_0_l, Z.add_0_r in E0. rewrite E0. cbn [rbind].
    assert (NE : exists v0 l, vals = v0 :: l) by (destruct vals as [|v0 l]; [unfold size, zlen in Q0; cbn in Q0; lia|eauto]).
    destruct NE as (v0 & l & EV). cbn [Z.to_nat].
    assert (N0 : nth_error vals 0 = Some v0) by (rewrite EV; reflexivity). rewrite N0. cbn [need rbind].
    assert (H := SC 1 (fun i => p + (i + 1) * stride)). change (Z.to_nat 1) with 1%nat in H.
    assert (F1 : F (firstn 1 vals) = v0) by (rewrite EV; reflexivity). rewrite F1 in H. apply H; [lia|].
    intros j Hj. rewrite HL by lia. rewrite (Z.add_comm j 1). reflexivity.
Qed.
End Semigroup.
