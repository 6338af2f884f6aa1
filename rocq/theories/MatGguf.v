(** Proofs about matrix products, part 4: ggml::mat_mul. *)
From Verif Require Import Base DTypeModel ParamModel ParamSpec ParamProofs TensorModel TensorSpec TensorProofs TensorSplit
  OpsModel OpsSpec OpsProofs OpsSum MatModel MatSpec MatProofs MatKernel MatBlas.
Local Open Scope Z_scope.

Section Gguf.
Context {A : Type}.
Variable zero : A.
Variable add : A -> A -> A.
Variable mul : A -> A -> A.
Hypothesis M0 : comm_monoid zero add.
Notation psum := (psum zero add).
Notation prod X Y K := (psum (fun k => mul (Y k) (X k)) (Z.to_nat K)).
Notation plus_bias := (plus_bias add).

Section One.
Variables (KN : Z) (wide : bool) (M K N : Z) (a : buf A) (ao : Z) (b : buf A) (bo co threads : Z) (X Y : Z -> Z -> A)
  (bias : option (buf A * Z)) (bv : option (Z -> A)) (G : Z -> option A) (c : buf A).
Hypothesis HKN : 0 < KN.
Hypothesis HM : 0 <= M.
Hypothesis HN : 0 <= N.
Hypothesis HK : 0 <= K.
Hypothesis HT : 1 <= threads.
Hypothesis HB : bias_ok bias bv N.
Hypothesis HX : forall m k, 0 <= m < M -> 0 <= k < K -> loadv a (ao + (m * K + k)) = ROk (X m k).
Hypothesis HY : forall n k, 0 <= n < N -> 0 <= k < K -> loadv b (bo + (n * K + k)) = ROk (Y n k).
Hypothesis HC : forall m n, 0 <= m < M -> 0 <= n < N -> 0 <= co + (m * N + n) < b_len c.
Hypothesis HG : forall m n, 0 <= m < M -> 0 <= n < N -> G (co + (m * N + n)) = Some (plus_bias bv n (prod (X m) (Y n) K)).
Lemma llamafile_spec :
  exists c', llamafile zero add mul KN wide N M K b bo K a ao K co N bias threads c = ROk c' /\ good G (cells co N M N) c c'.
Proof using M0 HKN HM HN HK HT HB HX HY HC HG.
  unfold llamafile. cbv zeta.
  match goal with |- exists _, zloop _ (fun id c => mnpack _ _ ?v _ _ _ _ _ _ _ _ c) c = _ /\ _ => 
    destruct (pack_all (pack_tile wide) (pack_tile_spec wide) v (fun i j => plus_bias bv i (prod (X j) (Y i) K)) co N threads G HT N M c) as (c' & E & C); auto end.
  - intros i j [Hi Hj]. split; [|split].
    + rewrite (dot_kernel_spec zero add mul M0 KN b (bo + K * i) a (ao + K * j) K (Y i) (X j)); auto.
      2:{ intros k Hk. rewrite <- Z.add_assoc, (Z.mul_comm K i). apply HY; auto. }
      2:{ intros k Hk. rewrite <- Z.add_assoc, (Z.mul_comm K j). apply HX; auto. }
      cbn [rbind]. destruct bias as [[p o]|], bv as [f|]; cbn in HB |- *; try contradiction; auto.
      rewrite HB by auto. reflexivity.
    + rewrite (Z.mul_comm N j). apply HC; auto.
    + rewrite (Z.mul_comm N j). apply HG; auto.
  - exists c'. split; [exact E|]. eapply good_weaken; [|exact C]. intros d (m & Hm & Hd). unfold segment in Hd.
    exists (d - co - m * N), m. split; [split; lia|]. lia.
Qed.
End One.

Section Batch.
Variables (cpu : isa) (batch M K N sa : Z) (sb : option Z) (sc : Z) (a : buf A) (ao : Z) (b : buf A) (bo co threads : Z) (X Y : Z -> Z -> Z -> A)
  (bias : option (buf A * Z)) (bv : option (Z -> A)) (G : Z -> option A) (c : buf A).
Let off (i : Z) : Z := match sb with Some s => if 0 <? s then i * s else 0 | None => 0 end.
Hypothesis HM : 0 <= M.
Hypothesis HN : 0 <= N.
Hypothesis HK : 0 <= K.
Hypothesis HT : 1 <= threads.
Hypothesis HB : bias_ok bias bv N.
Hypothesis HO : llamafile_serves cpu M K = false -> forall i, 0 <= i < batch -> off i = 0.
Hypothesis HX : forall i m k, 0 <= i < batch -> 0 <= m < M -> 0 <= k < K -> loadv a (ao + i * sa + (m * K + k)) = ROk (X i m k).
Hypothesis HY : forall i n k, 0 <= i < batch -> 0 <= n < N -> 0 <= k < K -> loadv b (bo + off i + (n * K + k)) = ROk (Y i n k).
Hypothesis HC : forall i m n, 0 <= i < batch -> 0 <= m < M -> 0 <= n < N -> 0 <= co + i * sc + (m * N + n) < b_len c.
Hypothesis HG : forall i m n, 0 <= i < batch -> 0 <= m < M -> 0 <= n < N -> G (co + i * sc + (m * N + n)) = Some (plus_bias bv n (prod (X i m) (Y i n) K)).
Lemma gguf_spec :
  exists c', gguf_matmul zero add mul cpu batch M K N sa K sb K sc a ao b bo co bias threads c = ROk c' /\
    good G (fun d => exists i, 0 <= i < batch /\ cells (co + i * sc) N M N d) c c'.
Proof using M0 HM HN HK HT HB HO HX HY HC HG.
  assert (O0 : off 0 = 0) by (unfold off; destruct sb as [s|]; [destruct (0 <? s); reflexivity|reflexivity]).
  unfold gguf_matmul. assert (HKN : 0 < reg_floats cpu) by (destruct cpu; reflexivity). destruct (llamafile_serves cpu M K) eqn:Q.
  - destruct (batch =? 1) eqn:Q1.
    + destruct (llamafile_spec (reg_floats cpu) (wide_regs cpu) M K N a ao b bo co threads (X 0) (Y 0) bias bv G c) as (c' & E & C); auto.
      * intros m k Hm Hk. rewrite <- (HX 0 m k) by lia. f_equal. lia.
      * intros n k Hn Hk. rewrite <- (HY 0 n k) by lia. rewrite O0. f_equal. lia.
      * intros m n Hm Hn. specialize (HC 0 m n). lia.
      * intros m n Hm Hn. rewrite <- (HG 0 m n) by lia. f_equal. lia.
      * exists c'. split; [exact E|]. eapply good_weaken; [|exact C]. intros d (i & Hi & Hd). assert (i = 0) by lia. subst i. rewrite Z.mul_0_l, Z.add_0_r in Hd. exact Hd.
    + apply (good_loop G batch (fun i => cells (co + i * sc) N M N)) with (L := b_len c); auto.
      intros i c1 Hi L. cbv zeta. fold (off i).
      apply (llamafile_spec (reg_floats cpu) (wide_regs cpu) M K N a (ao + i * sa) b (bo + off i) (co + i * sc) threads (X i) (Y i) bias bv G c1); auto.
      intros m n Hm Hn. rewrite L. auto.
  - assert (OF : forall i, 0 <= i < batch -> off i = 0) by (apply HO; auto). cbv zeta. set (blocks := N / 16 + 1).
    assert (Hbl : 0 < blocks) by (unfold blocks; assert (0 <= N / 16) by (apply Z.div_pos; lia); lia).
    assert (Hbl2 : N < blocks * 16) by (unfold blocks; assert (D := Z.mul_succ_div_gt N 16 ltac:(lia)); lia).
    assert (Blk : forall n, 0 <= n < N -> 0 <= n / 16 < blocks).
    { intros n Hn. split; [apply Z.div_pos; lia|apply quot_lt; lia]. }
    clearbody blocks.
    match goal with |- exists _, zloop _ ?body c = _ /\ _ =>
      destruct (good_loop G (batch * M * blocks) (fun t d => exists n, 0 <= n < N /\ t mod (M * blocks) mod blocks = n / 16 /\
        d = co + t / (M * blocks) * sc + (t mod (M * blocks) / blocks * N + n)) body c (b_len c) eq_refl) as (c' & E & C) end.
    + intros t c1 Ht L. destruct (Z.eq_dec M 0) as [->|NM]; [lia|].
      destruct (job_split t (M * blocks) batch) as [B1 B2]; [lia|nia|].
      destruct (job_split (t mod (M * blocks)) blocks M) as [B3 B4]; [lia|lia|].
      set (bi := t / (M * blocks)) in *. set (m := t mod (M * blocks) / blocks) in *. set (bl := t mod (M * blocks) mod blocks) in *.
      clearbody bi m bl. clear Ht B2.
      destruct (good_loop G (Z.min 16 (N - bl * 16)) (fun s d => d = co + bi * sc + (m * N + (bl * 16 + s)))
        (fun t0 c0 => do s <- dot_kernel zero add mul (dot_lanes cpu) b (bo + (bl * 16 + t0) * K) a (ao + ((if 1 <? batch then bi * sa else 0) + m * K)) K;
            do s0 <- plus_vec add bias (bl * 16 + t0) s;
            store c0 (co + (bi * sc + (m * N + (bl * 16 + t0)))) (Some s0)) c1 (b_len c1) eq_refl) as (c2 & E2 & C2).
      * intros s c2 Hs L2. set (n := bl * 16 + s) in *. assert (Hn : 0 <= n < N) by (unfold n; lia). clearbody n.
        rewrite (dot_kernel_spec zero add mul M0 (dot_lanes cpu) b (bo + n * K) a _ K (Y bi n) (X bi m)).
        -- cbn [rbind].
           rewrite (plus_vec_spec zero add M0 bias bv N) by auto. cbn [rbind]. rewrite Z.add_assoc.
           destruct (good_store G c2 (co + bi * sc + (m * N + n)) (Some (plus_bias bv n (prod (X bi m) (Y bi n) K)))) as (c3 & E3 & C3).
           ++ rewrite L2, L. apply HC; auto.
           ++ symmetry. apply HG; auto.
           ++ exists c3. split; [exact E3|]. eapply good_weaken; [|exact C3]. cbn beta. auto.
        -- destruct cpu; reflexivity.
        -- auto.
        -- intros k Hk. rewrite <- (HY bi n k) by lia. rewrite OF by auto. f_equal. lia.
        -- intros k Hk. rewrite <- (HX bi m k) by lia. f_equal. destruct (1 <? batch) eqn:Qb; [lia|]. replace bi with 0 by lia. lia.
      * exists c2. split; [exact E2|]. eapply good_weaken; [|exact C2]. cbn beta. intros d (n & Hn & En & ->).
        exists (n mod 16). assert (D := Z.div_mod n 16 ltac:(lia)). assert (B := Z.mod_pos_bound n 16 ltac:(lia)).
        replace (bl * 16 + n mod 16) with n by lia. split; [lia|reflexivity].
    + exists c'. split; [exact E|]. eapply good_weaken; [|exact C]. intros d (i & Hi & m & Hm & Hd). unfold segment in Hd.
      set (n := d - (co + i * sc) - m * N). assert (Hn : 0 <= n < N) by (unfold n; lia).
      assert (Ed : d = co + i * sc + (m * N + n)) by (unfold n; ring). clearbody n. specialize (Blk n Hn).
      assert (J1 : 0 <= m * blocks + n / 16 < M * blocks) by (apply job_bound; lia).
      assert (J2 : 0 <= i * (M * blocks) + (m * blocks + n / 16) < batch * (M * blocks)) by (apply job_bound; lia).
      exists (i * (M * blocks) + (m * blocks + n / 16)). split; [rewrite <- Z.mul_assoc; exact J2|].
      set (r := m * blocks + n / 16) in *. exists n.
      replace ((i * (M * blocks) + r) mod (M * blocks)) with r by (rewrite Z.add_comm, Z.mod_add, Z.mod_small; lia).
      replace ((i * (M * blocks) + r) / (M * blocks)) with i by (rewrite Z.div_add_l, (Z.div_small r) by lia; lia).
      unfold r. replace ((m * blocks + n / 16) mod blocks) with (n / 16) by (rewrite Z.add_comm, Z.mod_add, Z.mod_small; lia).
      replace ((m * blocks + n / 16) / blocks) with m by (rewrite Z.div_add_l, (Z.div_small (n / 16)) by lia; lia). auto.
Qed.
End Batch.
End Gguf.
