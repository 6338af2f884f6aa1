(** Proofs about rotary position embeddings, part 2: the operator and its tables. *)
From Coq Require Import Reals Lra Psatz.
From Verif Require Import Base DTypeModel ParamModel ParamSpec ParamProofs TensorModel TensorSpec TensorProofs TensorSplit
  OpsModel OpsSpec OpsProofs OpsIndex OpsSum MatModel MatSpec MatProofs MatKernel MatOps ExpModel ExpProofs
  AttnModel AttnSpec AttnProofs AttnOps NumModel NumSpec NumProofs NumNorm RopeModel RopeSpec RopeProofs.
Local Open Scope Z_scope.

Lemma default_strides_last s : s <> [] -> last (default_strides s) 0 = 1.
Proof.
  induction s as [|d s IH]; [contradiction|]. intros _. rewrite default_strides_cons. destruct s as [|e s]; [reflexivity|].
  specialize (IH ltac:(discriminate)). rewrite default_strides_cons in *. exact IH.
Qed.
Lemma contiguous_dense {A} (t : tns A) shape F : holds t shape F -> dense_rows t shape F.
Proof.
  intros [h1 h2 h3 h4]. constructor; auto. assert (R1 := ok_rank _ h2). apply contiguous_strides in h3. rewrite h3. apply default_strides_last.
  intro E. rewrite E in R1. cbn in R1. lia.
Qed.
Lemma default_address shape idx : length idx = length shape -> address (mkV shape (default_strides shape) 0) idx = ravel shape idx.
Proof. intro H. rewrite <- dot_address. cbn [v_offset v_stride]. rewrite dot_ravel by auto. ring. Qed.

Section Op.
Context (a : arch) (lay : layout) (partial : Z) (t sn cs : tns R) (B H S D TB TS TD : Z) (F Sn Cs : list Z -> R).
Hypothesis HT : dense_rows t (activation_shape lay B H S D) F.
Hypothesis HS : dense_rows sn [TB; TS; TD] Sn.
Hypothesis HC : dense_rows cs [TB; TS; TD] Cs.
Hypothesis HP : partial = -1 \/ 0 <= partial <= D.
Hypothesis HTab : B <= TB /\ S <= TS /\ pairs partial D <= TD.

Lemma dims_nonneg : 0 <= B /\ 0 <= H /\ 0 <= S /\ 0 <= D.
Proof using HT.
  assert (E := ok_dims _ (dr_ok _ _ _ HT)). rewrite (dr_shape _ _ _ HT) in E. unfold activation_shape in E.
  destruct lay; inversion E as [|? ? E1 E2]; inversion E2 as [|? ? E3 E4]; inversion E4 as [|? ? E5 E6]; inversion E6 as [|? ? E7 E8]; subst; auto.
Qed.
Lemma half_ok : (if partial =? -1 then D ÷ 2 else partial ÷ 2) = pairs partial D /\ 0 <= pairs partial D /\ 2 * pairs partial D <= D.
Proof using HT HP.
  destruct dims_nonneg as (_ & _ & _ & HD). unfold pairs. destruct (partial =? -1) eqn:Q.
  - rewrite Z.quot_div_nonneg by lia. split; [reflexivity|]. assert (M := Z.div_mod D 2 ltac:(lia)). assert (N := Z.mod_pos_bound D 2 ltac:(lia)). lia.
  - rewrite Z.quot_div_nonneg by lia. split; [reflexivity|]. assert (M := Z.div_mod partial 2 ltac:(lia)). assert (N := Z.mod_pos_bound partial 2 ltac:(lia)). lia.
Qed.
(** The two loops of the operator, with the addresses resolved. *)
Lemma op_loops ov (o0 : buf R) inplace : v_shape ov = activation_shape lay B H S D ->
  let half := pairs partial D in
  let n1 := match lay with BHSD => H | BSHD => S end in
  let n2 := match lay with BHSD => S | BSHD => H end in
  let tok i j k := match lay with BHSD => [i; k] | BSHD => [i; j] end in
  (match lay with
   | BHSD =>
       zloop B (fun n => zloop n1 (fun h => zloop n2 (fun s o =>
         do ao <- offsetted (x_view t) [n; h; s; 0];
         do oo <- offsetted ov [n; h; s; 0];
         do so <- offsetted (x_view sn) [n; s; 0];
         do co <- offsetted (x_view cs) [n; s; 0];
         rotate_row a inplace (x_buf t) ao oo half (x_buf sn) so (x_buf cs) co o))) o0
   | BSHD =>
       zloop B (fun n => zloop n1 (fun s o =>
         do so <- offsetted (x_view sn) [n; s; 0];
         do co <- offsetted (x_view cs) [n; s; 0];
         zloop n2 (fun h o =>
           do ao <- offsetted (x_view t) [n; s; h; 0];
           do oo <- offsetted ov [n; s; h; 0];
           rotate_row a inplace (x_buf t) ao oo half (x_buf sn) so (x_buf cs) co o) o)) o0
   end) = zloop B (fun i => zloop n1 (fun j => zloop n2 (fun k o => rotate_row a inplace (x_buf t) (address (x_view t) [i; j; k; 0]) (address ov [i; j; k; 0]) half
            (x_buf sn) (address (x_view sn) (tok i j k ++ [0])) (x_buf cs) (address (x_view cs) (tok i j k ++ [0])) o))) o0 /\
  forall o1, zloop B (fun i => zloop n1 (fun j => zloop n2 (fun k o =>
              do ao <- offsetted (x_view t) [i; j; k; 0];
              do oo <- offsetted ov [i; j; k; 0];
              tail_row a inplace (x_buf t) ao oo (half * 2) D o))) o1 =
    zloop B (fun i => zloop n1 (fun j => zloop n2 (fun k o => tail_row a inplace (x_buf t) (address (x_view t) [i; j; k; 0]) (address ov [i; j; k; 0]) (half * 2) D o))) o1.
Proof using HT HS HC.
  intro HV. cbv zeta.
  assert (E1 : forall i j k, offsetted (x_view t) [i; j; k; 0] = ROk (address (x_view t) [i; j; k; 0])).
  { intros i j k. apply offsetted_address. change (v_shape (x_view t)) with (x_shape t). rewrite (dr_shape _ _ _ HT). destruct lay; reflexivity. }
  assert (E2 : forall i j k, offsetted ov [i; j; k; 0] = ROk (address ov [i; j; k; 0])).
  { intros i j k. apply offsetted_address. rewrite HV. destruct lay; reflexivity. }
  assert (E3 : forall i k, offsetted (x_view sn) [i; k; 0] = ROk (address (x_view sn) [i; k; 0])).
  { intros i k. apply offsetted_address. change (v_shape (x_view sn)) with (x_shape sn). rewrite (dr_shape _ _ _ HS). reflexivity. }
  assert (E4 : forall i k, offsetted (x_view cs) [i; k; 0] = ROk (address (x_view cs) [i; k; 0])).
  { intros i k. apply offsetted_address. change (v_shape (x_view cs)) with (x_shape cs). rewrite (dr_shape _ _ _ HC). reflexivity. }
  clear HT HS HC. split.
  - destruct lay; apply zloop_ext; intros i s1 _; apply zloop_ext; intros j s2 _; [|rewrite E3, E4; cbn [rbind]]; apply zloop_ext; intros k s3 _; rewrite E1, E2; cbn [rbind]; [rewrite E3, E4|]; reflexivity.
  - intro o1. apply zloop_ext; intros i s1 _; apply zloop_ext; intros j s2 _; apply zloop_ext; intros k s3 _. rewrite E1, E2. reflexivity.
Qed.
Lemma op_unfold inplace : rope_op a lay partial inplace t sn cs =
  (do out <- (if inplace then ROk t else fresh_tensor (x_shape t));
   do o <- match lay with
            | BHSD =>
                zloop B (fun n => zloop H (fun h => zloop S (fun s o =>
                  do ao <- offsetted (x_view t) [n; h; s; 0];
                  do oo <- offsetted (x_view out) [n; h; s; 0];
                  do so <- offsetted (x_view sn) [n; s; 0];
                  do co <- offsetted (x_view cs) [n; s; 0];
                  rotate_row a inplace (x_buf t) ao oo (pairs partial D) (x_buf sn) so (x_buf cs) co o))) (x_buf out)
            | BSHD =>
                zloop B (fun n => zloop S (fun s o =>
                  do so <- offsetted (x_view sn) [n; s; 0];
                  do co <- offsetted (x_view cs) [n; s; 0];
                  zloop H (fun h o =>
                    do ao <- offsetted (x_view t) [n; s; h; 0];
                    do oo <- offsetted (x_view out) [n; s; h; 0];
                    rotate_row a inplace (x_buf t) ao oo (pairs partial D) (x_buf sn) so (x_buf cs) co o) o)) (x_buf out)
            end;
    do o <- zloop B (fun i => zloop (match lay with BHSD => H | BSHD => S end) (fun j => zloop (match lay with BHSD => S | BSHD => H end) (fun k o =>
              do ao <- offsetted (x_view t) [i; j; k; 0];
              do oo <- offsetted (x_view out) [i; j; k; 0];
              tail_row a inplace (x_buf t) ao oo (pairs partial D * 2) D o))) o;
    ROk (mkTns (x_view out) o)).
Proof using HT HP.
  unfold rope_op. rewrite (dr_shape _ _ _ HT). rewrite <- (proj1 half_ok). clear. destruct lay; reflexivity.
Qed.

Theorem rope_fresh : returns (rope_op a lay partial false t sn cs) (activation_shape lay B H S D) (rope lay (pairs partial D) Sn Cs F).
Proof using All.
  set (shape := activation_shape lay B H S D) in *. assert (R1 := ok_rank _ (dr_ok _ _ _ HT)). assert (R2 := ok_dims _ (dr_ok _ _ _ HT)). rewrite (dr_shape _ _ _ HT) in R1, R2.
  set (ov := mkV shape (default_strides shape) 0). set (o0 := mkBuf (product shape) (fun _ : Z => @None R)).
  assert (L4 : length shape = 4%nat) by (unfold shape, activation_shape; destruct lay; reflexivity).
  destruct (rope_core a lay (pairs partial D) false t sn cs B H S D TB TS TD F Sn Cs HT HS HC ltac:(destruct half_ok; lia) HTab ov o0) as (o1 & o & E1 & E2 & L & V & _).
  - reflexivity.
  - cbn [v_stride ov]. rewrite default_strides_length. exact L4.
  - cbn [v_stride ov]. apply default_strides_last. intro Q. rewrite Q in L4. discriminate.
  - intros idx Hi. unfold ov. rewrite default_address by (apply in_shape_length; auto). cbn [b_len o0]. apply ravel_bounds; auto.
  - intros i j Hi Hj. unfold ov. rewrite !default_address by (apply in_shape_length; auto). apply ravel_inj; auto.
  - discriminate.
  - exists (mkTns ov o). split.
    + rewrite op_unfold. rewrite (dr_shape _ _ _ HT). fold shape. rewrite fresh_ok by auto. cbn [rbind x_view x_buf]. fold ov o0.
      destruct (op_loops ov o0 false eq_refl) as [Q1 Q2]. cbv zeta in Q1, Q2. 
      transitivity (do o <- (do o1 <- zloop B (fun i => zloop (match lay with BHSD => H | BSHD => S end) (fun j => zloop (match lay with BHSD => S | BSHD => H end) (fun k o => rotate_row a false (x_buf t) (address (x_view t) [i; j; k; 0]) (address ov [i; j; k; 0]) (pairs partial D)
            (x_buf sn) (address (x_view sn) ((match lay with BHSD => [i; k] | BSHD => [i; j] end) ++ [0])) (x_buf cs) (address (x_view cs) ((match lay with BHSD => [i; k] | BSHD => [i; j] end) ++ [0])) o))) o0;
            zloop B (fun i => zloop (match lay with BHSD => H | BSHD => S end) (fun j => zloop (match lay with BHSD => S | BSHD => H end) (fun k o => tail_row a false (x_buf t) (address (x_view t) [i; j; k; 0]) (address ov [i; j; k; 0]) (pairs partial D * 2) D o))) o1); ROk (mkTns ov o)).
      * rewrite <- Q1. assert (Q3 := E1). clear - Q2. 
        match goal with |- rbind ?X _ = rbind (rbind ?Y _) _ => replace X with Y by (destruct lay; reflexivity); destruct Y as [o2| | |]; cbn [rbind]; try reflexivity end.
        rewrite Q2. reflexivity.
      * rewrite E1. cbn [rbind]. rewrite E2. reflexivity.
    + split; [reflexivity|]. destruct (owner_ok shape o R1 R2 L) as [O1 O2]. split; [exact O1|]. split; [exact O2|]. intros idx Hi. unfold elem. cbn [x_view x_buf]. apply V; auto.
Qed.
Theorem rope_inplace : no_aliasing t -> rewrites (rope_op a lay partial true t sn cs) t (rope lay (pairs partial D) Sn Cs F).
Proof using All.
  intro NA. set (shape := activation_shape lay B H S D) in *. assert (R3 := ok_stride _ (dr_ok _ _ _ HT)). rewrite (dr_shape _ _ _ HT) in R3.
  assert (L4 : length shape = 4%nat) by (unfold shape, activation_shape; destruct lay; reflexivity).
  destruct (rope_core a lay (pairs partial D) true t sn cs B H S D TB TS TD F Sn Cs HT HS HC ltac:(destruct half_ok; lia) HTab (x_view t) (x_buf t)) as (o1 & o & E1 & E2 & L & V & W).
  - apply HT.
  - fold shape in R3. change (v_stride (x_view t)) with (x_stride t). lia.
  - apply HT.
  - intros idx Hi. apply (ok_inside _ (dr_ok _ _ _ HT)). rewrite (dr_shape _ _ _ HT). exact Hi.
  - intros i j Hi Hj. apply NA; rewrite (dr_shape _ _ _ HT); auto.
  - auto.
  - exists (mkTns (x_view t) o). split.
    + rewrite op_unfold. cbn [rbind].
      destruct (op_loops (x_view t) (x_buf t) true (dr_shape _ _ _ HT)) as [Q1 Q2]. cbv zeta in Q1, Q2. 
      transitivity (do o <- (do o1 <- zloop B (fun i => zloop (match lay with BHSD => H | BSHD => S end) (fun j => zloop (match lay with BHSD => S | BSHD => H end) (fun k o => rotate_row a true (x_buf t) (address (x_view t) [i; j; k; 0]) (address (x_view t) [i; j; k; 0]) (pairs partial D)
            (x_buf sn) (address (x_view sn) ((match lay with BHSD => [i; k] | BSHD => [i; j] end) ++ [0])) (x_buf cs) (address (x_view cs) ((match lay with BHSD => [i; k] | BSHD => [i; j] end) ++ [0])) o))) (x_buf t);
            zloop B (fun i => zloop (match lay with BHSD => H | BSHD => S end) (fun j => zloop (match lay with BHSD => S | BSHD => H end) (fun k o => tail_row a true (x_buf t) (address (x_view t) [i; j; k; 0]) (address (x_view t) [i; j; k; 0]) (pairs partial D * 2) D o))) o1); ROk (mkTns (x_view t) o)).
      * rewrite <- Q1. clear - Q2. 
        match goal with |- rbind ?X _ = rbind (rbind ?Y _) _ => replace X with Y by (destruct lay; reflexivity); destruct Y as [o2| | |]; cbn [rbind]; try reflexivity end.
        rewrite Q2. reflexivity.
      * rewrite E1. cbn [rbind]. rewrite E2. reflexivity.
    + cbn [x_view x_buf]. split; [reflexivity|]. split; [exact L|]. rewrite (dr_shape _ _ _ HT). split; [|exact W]. intros idx Hi. unfold elem. cbn [x_view x_buf]. apply V; auto.
Qed.
End Op.
