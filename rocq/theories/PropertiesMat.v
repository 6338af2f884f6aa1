(** Property theorems C55, C56 (matrix products on the CPU). *)
From Verif Require Import Base DTypeModel ParamModel ParamSpec ParamProofs TensorModel TensorSpec TensorProofs TensorSplit
  PropertiesTensor OpsModel OpsSpec OpsProofs OpsIndex OpsSum PropertiesOps MatModel MatSpec MatProofs MatKernel MatBlas MatGguf MatOps.
Local Open Scope Z_scope.

Lemma ints_holds shape l : (1 <= length shape <= 16)%nat -> Forall (fun d => 0 <= d) shape -> zlen l = product shape ->
  holds (ints shape l) shape (fun idx => nth (Z.to_nat (ravel shape idx)) l 0).
Proof.
  intros H1 H2 H3. destruct (ints_ok shape l H1 H2) as [O1 O2]. constructor; auto; [apply owns_contiguous; auto|].
  intros idx Hi. unfold ints. rewrite owner_elem by (apply in_shape_length; auto). cbn [b_at].
  assert (B := ravel_bounds _ _ Hi). replace (0 <=? ravel shape idx) with true by lia.
  apply nth_error_nth'. unfold zlen in H3. lia.
Qed.
Ltac holds_ints := apply ints_holds; [cbn; lia|repeat constructor; lia|reflexivity].
Lemma Z_monoid : comm_monoid 0 Z.add.
Proof. constructor; intros; lia. Qed.

(* ------------------------------------------------------------------ *)
(** ** C55: matrix products *)

(** For contiguous operands of equal batch shape, transposed right operand or not,
    AVX2, AVX-512 or NEON, any number of threads: each element of the result
    is the product of its row with its column.  The last hypothesis is about the one
    combination that is wrong, see below. *)
Theorem C55_matmul_partial : forall (A : Type) (zero : A) add mul cpu tb threads a b pre M K N FA FB,
  comm_monoid zero add -> (forall x y, mul x y = mul y x) -> 1 <= threads -> 1 <= K ->
  holds a (pre ++ [M; K]) FA -> holds b (pre ++ right_shape tb K N) FB ->
  (tb = true -> 4 <= M -> 2 <= product pre -> K mod reg_floats cpu = 0) ->
  exists out, matmul_op zero add mul cpu tb threads a b = ROk out /\
    x_shape out = pre ++ [M; N] /\ tensor_ok out /\ owns_storage out /\
    forall p m n, in_shape pre p -> 0 <= m < M -> 0 <= n < N ->
      elem out (p ++ [m; n]) = Some (dot_product zero add mul K (fun k => FA (p ++ [m; k])) (fun k => FB (right_index tb p k n))).
Proof. intros. apply matmul_correct; auto. Qed.

Lemma C55_hypotheses :
  holds (ints [2; 2; 3] [1; 2; 3; 4; 5; 6; 7; 8; 9; 10; 11; 12]) ([2] ++ [2; 3]) (fun idx => nth (Z.to_nat (ravel [2; 2; 3] idx)) [1; 2; 3; 4; 5; 6; 7; 8; 9; 10; 11; 12] 0) /\
  holds (ints [2; 3; 2] [1; 0; 0; 1; 1; 1; 2; 0; 0; 2; 1; 3]) ([2] ++ right_shape false 3 2) (fun idx => nth (Z.to_nat (ravel [2; 3; 2] idx)) [1; 0; 0; 1; 1; 1; 2; 0; 0; 2; 1; 3] 0).
Proof. split; holds_ints. Qed.
Example C55_example :
  exists out, matmul_op 0 Z.add Z.mul Avx2 false 4
     (ints [2; 2; 3] [1; 2; 3; 4; 5; 6; 7; 8; 9; 10; 11; 12]) (ints [2; 3; 2] [1; 0; 0; 1; 1; 1; 2; 0; 0; 2; 1; 3]) = ROk out /\
  x_shape out = [2; 2; 2] /\ contents out = map Some [4; 5; 10; 11; 23; 43; 32; 58].
Proof. by_run. Qed.
(** Sizes around the tile and register widths, both storage orders. *)
Example C55_example_sizes :
  let rows := flat_map (fun i => map (fun k => i + k) (range 19)) (range 7) in
  let identity := flat_map (fun k => map (fun n => if k =? n then 1 else 0) (range 19)) (range 19) in
  (exists out, matmul_op 0 Z.add Z.mul Avx2 false 3 (ints [7; 19] rows) (ints [19; 19] identity) = ROk out /\ x_shape out = [7; 19] /\ contents out = map Some rows) /\
  (exists out, matmul_op 0 Z.add Z.mul Avx2 true 3 (ints [7; 19] rows) (ints [19; 19] identity) = ROk out /\ x_shape out = [7; 19] /\ contents out = map Some rows) /\
  (exists out, matmul_op 0 Z.add Z.mul Neon false 3 (ints [7; 19] rows) (ints [19; 19] identity) = ROk out /\ x_shape out = [7; 19] /\ contents out = map Some rows) /\
  (exists out, matmul_op 0 Z.add Z.mul Neon true 3 (ints [7; 19] rows) (ints [19; 19] identity) = ROk out /\ x_shape out = [7; 19] /\ contents out = map Some rows).
Proof. split; [by_run|]. split; [by_run|]. split; by_run. Qed.
(** Sizes that the packed product serves: multiples of the register width. *)
Example C55_example_packed :
  let rows := flat_map (fun i => map (fun k => i + k) (range 16)) (range 14) in
  let identity := flat_map (fun k => map (fun n => if k =? n then 1 else 0) (range 16)) (range 16) in
  forall cpu, exists out, matmul_op 0 Z.add Z.mul cpu true 3 (ints [2; 7; 16] rows) (ints [2; 16; 16] (identity ++ identity)) = ROk out /\ x_shape out = [2; 7; 16] /\ contents out = map Some rows.
Proof. cbv zeta. intros []; by_run. Qed.

(** Threads of the packed product never write the same cell. *)
Theorem C55_threads_apart : forall (A : Type) (value : Z -> Z -> res A) wide co ldc m n fuel threads id1 id2 (c1 c1' c2 c2' : buf A) d,
  m <= ldc -> 0 <= id1 < threads -> 0 <= id2 < threads ->
  mnpack fuel (pack_tile wide) value co ldc 0 m 0 n id1 threads c1 = ROk c1' ->
  mnpack fuel (pack_tile wide) value co ldc 0 m 0 n id2 threads c2 = ROk c2' ->
  b_at c1' d <> b_at c1 d -> b_at c2' d <> b_at c2 d -> id1 = id2.
Proof.
  intros A value wide co ldc m n fuel threads id1 id2 c1 c1' c2 c2' d Hm H1 H2 E1 E2 N1 N2.
  assert (X : exists x : A, True).
  { destruct (b_at c1' d) as [x|] eqn:Q1; [exists x; auto|]. destruct (b_at c1 d) as [x|] eqn:Q2; [exists x; auto|contradiction]. }
  destruct X as (x & _).
  apply (threads_apart (pack_tile wide) (pack_tile_spec wide) value (fun _ _ => x) co ldc threads (fun _ => None) ltac:(lia) m n fuel id1 id2 c1 c1' c2 c2' d); auto.
Qed.
Example C55_threads_example :
  let run id := match mnpack 30 (pack_tile false) (fun i j => ROk (10 * i + j)) 0 13 0 13 0 10 id 3 (mkBuf 130 (fun _ => None)) with ROk c => map (b_at c) (range 130) | _ => [] end in
  map (fun id => length (filter (fun o => match o with Some _ => true | None => false end) (run id))) [0; 1; 2] = [53; 41; 36]%nat.
Proof. vm_compute. reflexivity. Qed.

(** Operands that do not fit are refused: different inner extents, different numbers of
    matrices (there is no broadcasting). *)
Theorem C55_mismatch_refused : forall (A : Type) (zero : A) add mul cpu tb threads a b pre pre' M K N K',
  x_shape a = pre ++ [M; K] -> x_shape b = pre' ++ right_shape tb K' N -> (length pre <= 14)%nat ->
  K <> K' \/ product pre <> product pre' ->
  matmul_op zero add mul cpu tb threads a b = RAbort.
Proof.
  intros A zero add mul cpu tb threads a b pre pre' M K N K' EA EB Hr H.
  assert (EB2 : x_shape b = pre' ++ [if tb then N else K'; if tb then K' else N]) by (rewrite EB; destruct tb; reflexivity).
  unfold matmul_op. cbv zeta. rewrite EA, EB2. destruct (nth_two pre M K) as [N1 N2]. destruct (nth_two pre' (if tb then N else K') (if tb then K' else N)) as [N3 N4].
  replace (length (pre ++ [M; K]) <? 2)%nat with false by (rewrite app_length; cbn [length]; lia).
  replace (length (pre' ++ [if tb then N else K'; if tb then K' else N]) <? 2)%nat with false by (rewrite app_length; cbn [length]; lia).
  rewrite N2.
  replace (nth (if tb then length (pre' ++ [if tb then N else K'; if tb then K' else N]) - 1 else length (pre' ++ [if tb then N else K'; if tb then K' else N]) - 2)%nat (pre' ++ [if tb then N else K'; if tb then K' else N]) 0) with K' by (destruct tb; auto).
  destruct (K =? K') eqn:Q; [|reflexivity]. cbn [negb]. rewrite !firstn_two.
  rewrite fresh_ok by (rewrite app_length; cbn [length]; lia). cbn [rbind]. rewrite !numel_product.
  replace (product pre =? product pre') with false by lia. reflexivity.
Qed.
(** The product with a transposed right operand uses the first matrix of the right
    operand for every batch, if there are at least 4 rows and the inner
    extent is not a multiple of the register width. *)
Theorem C55_transposed_batch_refuted :
  exists out, matmul_op 0 Z.add Z.mul Avx2 true 4 (ints [2; 4; 1] [1; 2; 3; 4; 5; 6; 7; 8]) (ints [2; 1; 1] [1; 10]) = ROk out /\
  x_shape out = [2; 4; 1] /\ contents out = map Some [1; 2; 3; 4; 5; 6; 7; 8].
Proof. by_run. Qed.
Example C55_transposed_batch_arm_refuted :
  exists out, matmul_op 0 Z.add Z.mul Neon true 4 (ints [2; 4; 1] [1; 2; 3; 4; 5; 6; 7; 8]) (ints [2; 1; 1] [1; 10]) = ROk out /\
  x_shape out = [2; 4; 1] /\ contents out = map Some [1; 2; 3; 4; 5; 6; 7; 8].
Proof. by_run. Qed.
(** An empty inner dimension (every element should be zero), or no threads, leaves the
    result unwritten. *)
Theorem C55_empty_inner_refuted :
  exists out, matmul_op 0 Z.add Z.mul Avx2 false 4 (ints [2; 0] []) (ints [0; 2] []) = ROk out /\
  x_shape out = [2; 2] /\ contents out = repeat None 4.
Proof. by_run. Qed.
(** Batches of different shape are accepted if they have the same number of matrices. *)
Theorem C55_batch_shapes_refuted :
  exists out, matmul_op 0 Z.add Z.mul Avx2 false 4 (ints [2; 3; 1; 1] [1; 2; 3; 4; 5; 6]) (ints [3; 2; 1; 1] [1; 10; 100; 1; 10; 100]) = ROk out /\
  x_shape out = [2; 3; 1; 1] /\ contents out = map Some [1; 20; 300; 4; 50; 600].
Proof. by_run. Qed.
(** Strides within a matrix are ignored. *)
Theorem C55_noncontiguous_refuted :
  contents two_columns = map Some [0; 1; 3; 4] /\
  exists out, matmul_op 0 Z.add Z.mul Avx2 false 4 two_columns (ints [2; 2] [1; 0; 0; 1]) = ROk out /\ x_shape out = [2; 2] /\ contents out = map Some [0; 1; 2; 3].
Proof. split; [vm_compute; reflexivity|]. by_run. Qed.

(* ------------------------------------------------------------------ *)
(** ** C56: the linear layer *)

(** y = x W^T (+ b), for at least 4 input channels (1 on ARM), any batch shape, number of
    rows and number of threads. *)
Theorem C56_linear_partial : forall (A : Type) (zero : A) add mul cpu threads (x weight : tns A) bias pre M K N FX FW fb,
  comm_monoid zero add -> (forall x y, mul x y = mul y x) -> 1 <= threads -> (match cpu with Neon => 1 | _ => 4 end) <= K ->
  holds x (pre ++ [M; K]) FX -> holds weight [N; K] FW -> bias_holds bias fb N ->
  exists out, linear_op zero add mul cpu threads K N weight bias x = ROk out /\
    x_shape out = pre ++ [M; N] /\ tensor_ok out /\ owns_storage out /\
    forall p m n, in_shape pre p -> 0 <= m < M -> 0 <= n < N ->
      elem out (p ++ [m; n]) = Some (with_bias add fb n (dot_product zero add mul K (fun k => FX (p ++ [m; k])) (fun k => FW [n; k]))).
Proof. intros. apply linear_correct; auto. Qed.
Lemma C56_hypotheses :
  holds (ints [2; 1; 4] [1; 2; 3; 4; 5; 6; 7; 8]) ([2] ++ [1; 4]) (fun idx => nth (Z.to_nat (ravel [2; 1; 4] idx)) [1; 2; 3; 4; 5; 6; 7; 8] 0) /\
  holds (ints [2; 4] [1; 0; 0; 0; 1; 1; 1; 1]) [2; 4] (fun idx => nth (Z.to_nat (ravel [2; 4] idx)) [1; 0; 0; 0; 1; 1; 1; 1] 0) /\
  bias_holds (Some (ints [2] [100; 200])) (Some (fun idx => nth (Z.to_nat (ravel [2] idx)) [100; 200] 0)) 2.
Proof. split; [holds_ints|]. split; [holds_ints|]. cbn [bias_holds]. holds_ints. Qed.
Example C56_example :
  (exists out, linear_op 0 Z.add Z.mul Avx2 4 4 2 (ints [2; 4] [1; 0; 0; 0; 1; 1; 1; 1]) (Some (ints [2] [100; 200])) (ints [2; 1; 4] [1; 2; 3; 4; 5; 6; 7; 8]) = ROk out /\
     x_shape out = [2; 1; 2] /\ contents out = map Some [101; 210; 105; 226]) /\
  (exists out, linear_op 0 Z.add Z.mul Neon 4 4 2 (ints [2; 4] [1; 0; 0; 0; 1; 1; 1; 1]) (Some (ints [2] [100; 200])) (ints [2; 1; 4] [1; 2; 3; 4; 5; 6; 7; 8]) = ROk out /\
     x_shape out = [2; 1; 2] /\ contents out = map Some [101; 210; 105; 226]) /\
  (exists out, linear_op 0 Z.add Z.mul Neon 4 2 3 (ints [3; 2] [1; 0; 0; 1; 1; 1]) (Some (ints [3] [100; 200; 300])) (ints [2; 2; 2] [1; 2; 3; 4; 5; 6; 7; 8]) = ROk out /\
     x_shape out = [2; 2; 3] /\ contents out = map Some [101; 202; 303; 103; 204; 307; 105; 206; 311; 107; 208; 315]).
Proof. split; [by_run|]. split; by_run. Qed.
(** On x86, with fewer than 4 input channels the result is memory that was never written. *)
Theorem C56_few_channels_refuted : forall (A : Type) (zero : A) add mul cpu threads (x weight : tns A) bias pre M K N,
  cpu <> Neon -> tensor_ok x -> x_shape x = pre ++ [M; K] -> K < 4 -> 0 <= N ->
  exists out, linear_op zero add mul cpu threads K N weight bias x = ROk out /\
    produces (pre ++ [M; N]) (fun _ => None) out.
Proof.
  intros A zero add mul cpu threads x weight bias pre M K N NN OX E HK HN. unfold linear_op. cbv zeta. rewrite E. destruct (nth_two pre M K) as [N1 N2].
  assert (D := ok_dims _ OX). assert (R := ok_rank _ OX). rewrite E in D, R. rewrite app_length in R. cbn [length] in R. apply Forall_app in D as [D1 D2]. inversion D2; subst.
  replace (length (pre ++ [M; K]) <? 1)%nat with false by (rewrite app_length; cbn [length]; lia).
  replace (length (pre ++ [M; K]) <? 2)%nat with false by (rewrite app_length; cbn [length]; lia).
  rewrite N2, Z.eqb_refl. cbn [negb].
  replace (firstn (length (pre ++ [M; K]) - 1) (pre ++ [M; K]) ++ [N]) with (pre ++ [M; N]).
  2:{ rewrite app_length. cbn [length]. replace (length pre + 2 - 1)%nat with (length pre + 1)%nat by lia. rewrite firstn_app, firstn_all2 by lia.
      replace (length pre + 1 - length pre)%nat with 1%nat by lia. cbn [firstn]. rewrite <- app_assoc. reflexivity. }
  assert (Ros : (1 <= length (pre ++ [M; N]) <= 16)%nat) by (rewrite app_length; cbn [length]; lia).
  rewrite fresh_ok by auto. cbn [rbind]. replace (K <? 4) with true by lia.
  assert (Hos : Forall (fun d => 0 <= d) (pre ++ [M; N])) by (apply Forall_app; split; auto).
  destruct (owner_ok (pre ++ [M; N]) (mkBuf (product (pre ++ [M; N])) (fun _ : Z => @None A)) Ros Hos eq_refl) as [O1 O2].
  destruct cpu; [| |contradiction].
  all: eexists; split; [reflexivity|]; split; [reflexivity|]; split; [exact O1|]; split; [exact O2|]; intros idx Hi; reflexivity.
Qed.
Print Assumptions C55_matmul_partial.
Print Assumptions C55_threads_apart.
Print Assumptions C55_mismatch_refused.
Print Assumptions C55_transposed_batch_refuted.
Print Assumptions C55_empty_inner_refuted.
Print Assumptions C55_batch_shapes_refuted.
Print Assumptions C55_noncontiguous_refuted.
Print Assumptions C56_linear_partial.
Print Assumptions C56_few_channels_refuted.
