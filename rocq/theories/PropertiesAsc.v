(** Properties of the memory of the Ascend backend: C106, C107, C108. *)
From Verif Require Import Base AscModel AscProofs AscSpec AscHist.
Local Open Scope Z_scope.

(** ** C106: blocks held at the same time never share memory *)
Theorem C106_disjoint : forall base P l q i s j t, usual_pool base P -> Forall small l ->
  holds (new_pool (Some base) P) l q i s -> holds (new_pool (Some base) P) l q j t -> i <> j ->
  exists a b, get_block_ptr i q = Some a /\ get_block_ptr j q = Some b /\ (a + s <= b \/ b + t <= a).
Proof.
  intros base P l q i s j t U S H1 H2 N. assert (I0 := usual_inv _ _ U).
  destruct (holds_used P _ _ _ _ _ I0 H1 S) as (I & b & Hb & Eb & Rb). destruct (holds_used P _ _ _ _ _ I0 H2 S) as (_ & c & Hc & Ec & Rc).
  exists (b_addr b), (b_addr c). destruct (used_ptr P q b I Hb) as [_ G1]. destruct (used_ptr P q c I Hc) as [_ G2]. rewrite Eb in G1. rewrite Ec in G2.
  split; [exact G1|]. split; [exact G2|].
  assert (A : apart b c) by (eapply sep_pair; [exact (i_sep _ _ I)|apply in_or_app; left; exact Hb|apply in_or_app; left; exact Hc|congruence]).
  destruct (i_req _ _ I b Hb) as [_ R1]. destruct (i_req _ _ I c Hc) as [_ R2]. unfold apart in A. lia.
Qed.
Theorem C106_inside : forall base P l q i s, usual_pool base P -> Forall small l -> holds (new_pool (Some base) P) l q i s ->
  exists a, get_block_ptr i q = Some a /\ (64 | a) /\ base <= a /\ a + s + 32 <= base + P.
Proof.
  intros base P l q i s U S H1. assert (I0 := usual_inv _ _ U). destruct (holds_used P _ _ _ _ _ I0 H1 S) as (I & b & Hb & Eb & Rb).
  exists (b_addr b). destruct (used_ptr P q b I Hb) as [_ G]. rewrite Eb in G. split; [exact G|].
  destruct (i_ok _ _ I b ltac:(apply in_or_app; left; exact Hb)) as (K1 & K2 & K3 & K4 & K5). split; [exact K3|].
  assert (Eq : p_base q = base).
  { clear - H1. assert (H := holds_calls _ _ _ _ _ H1). clear H1. induction H as [|l q c H IH F]; [reflexivity|]. rewrite <- IH. destruct c as [o z|z|z]; cbn [do_call].
    - unfold allocate_block. cbv zeta. destruct (best_fit o _); [reflexivity|]. destruct (_ <? _); reflexivity.
    - unfold free_block. destruct (z <? 0); [reflexivity|]. destruct (find_id z (p_used q)); reflexivity.
    - reflexivity. }
  rewrite Eq in *. split; [exact K2|]. destruct (i_req _ _ I b Hb) as [_ R1]. assert (R := i_rem _ _ I). assert (R0 := i_rem0 _ _ I). rewrite Eq in R. lia.
Qed.
(** An id is not given out while it is held, and its address does not move. *)
Theorem C106_stable : forall base P l q i s c, usual_pool base P -> Forall small l -> small c -> holds (new_pool (Some base) P) l q i s ->
  fair_order c q -> answer c q <> Some i /\ (c <> CFree i -> get_block_ptr i (do_call c q) = get_block_ptr i q).
Proof.
  intros base P l q i s c U S Sc H1 F. assert (I0 := usual_inv _ _ U). destruct (holds_used P _ _ _ _ _ I0 H1 S) as (I & b & Hb & Eb & Rb). split.
  - destruct c as [order z|z|z]; cbn; [|discriminate|discriminate]. cbn in Sc, F. rewrite u32_id by lia. intro A.
    destruct (answer_new P order z q i I F Sc A) as (_ & Nu & _). exact (Nu b Hb Eb).
  - intro N. assert (Ic : pool_inv P (do_call c q)) by (apply inv_call; [exact I|exact F|destruct c; exact Sc]).
    assert (Hb' : In b (p_used (do_call c q))) by (apply (used_stays P); auto; congruence).
    destruct (used_ptr P _ b I Hb) as [_ G1]. destruct (used_ptr P _ b Ic Hb') as [_ G2]. rewrite Eb in *. congruence.
Qed.
(** A pool whose size is no multiple of 32: two requests reach behind its end, and from then on every request is granted. *)
Definition odd_pool : pool := do_call (CAlloc [] 32) (do_call (CAlloc [] 33) (new_pool (Some 4096) 161)).
Theorem C106_odd_pool_refuted : calls (new_pool (Some 4096) 161) [CAlloc [] 33; CAlloc [] 32] odd_pool /\
  get_block_ptr 1 odd_pool = Some 4224 /\ 4096 + 161 < 4224 + 64 /\ p_remain odd_pool = -31 /\
  forall order size, answer (CAlloc order size) odd_pool <> None.
Proof.
  split. { change [CAlloc [] 33; CAlloc [] 32] with (([] ++ [CAlloc [] 33]) ++ [CAlloc [] 32]). unfold odd_pool.
    apply calls_snoc; [apply calls_snoc; [constructor|cbn; reflexivity]|vm_compute; constructor]. }
  split; [vm_compute; reflexivity|]. split; [lia|]. split; [vm_compute; reflexivity|].
  intros order size. cbn [answer]. unfold allocate_block. cbv zeta. destruct (best_fit order _); [discriminate|].
  change (u64 (p_remain odd_pool)) with (2 ^ 64 - 31). replace (align_size (u32 size) <? 2 ^ 64 - 31) with true; [discriminate|].
  symmetry. unfold align_size, u32 at 1. assert (X := Z.mod_pos_bound (u32 (u32 size + 31) / 32 * 32 + 32) (2 ^ 32) ltac:(lia)). lia.
Qed.
(** A request of 4 GiB less one byte gets 32 bytes: the next block begins inside of it. *)
Definition big_pool : pool := do_call (CAlloc [] 1) (do_call (CAlloc [] (2 ^ 32 - 1)) (new_pool (Some 4096) (2 ^ 30))).
Theorem C106_big_refuted : calls (new_pool (Some 4096) (2 ^ 30)) [CAlloc [] (2 ^ 32 - 1); CAlloc [] 1] big_pool /\
  get_block_ptr 0 big_pool = Some 4096 /\ get_block_ptr 1 big_pool = Some 4160.
Proof.
  split. { change [CAlloc [] (2 ^ 32 - 1); CAlloc [] 1] with (([] ++ [CAlloc [] (2 ^ 32 - 1)]) ++ [CAlloc [] 1]). unfold big_pool.
    apply calls_snoc; [apply calls_snoc; [constructor|cbn; reflexivity]|vm_compute; constructor]. }
  split; vm_compute; reflexivity.
Qed.
(** Three requests, one of them given back and taken by a smaller one. *)
Definition ex_order : list block := [mkBlock 0 160 100 4096].
Definition ex_calls : list call := [CAlloc [] 100; CAlloc [] 40; CFree 0; CAlloc ex_order 60].
Definition ex_pool : pool := fold_left (fun q c => do_call c q) ex_calls (new_pool (Some 4096) 4096).
Lemma ex_holds : holds (new_pool (Some 4096) 4096) ex_calls ex_pool 0 60 /\ holds (new_pool (Some 4096) 4096) ex_calls ex_pool 1 40.
Proof.
  unfold ex_pool, ex_calls. cbn [fold_left].
  assert (C3 : calls (new_pool (Some 4096) 4096) ((([] ++ [CAlloc [] 100]) ++ [CAlloc [] 40]) ++ [CFree 0]) (do_call (CFree 0) (do_call (CAlloc [] 40) (do_call (CAlloc [] 100) (new_pool (Some 4096) 4096))))).
  { apply calls_snoc; [apply calls_snoc; [apply calls_snoc; [constructor|cbn; reflexivity]|vm_compute; constructor]|exact Logic.I]. }
  split.
  - refine (holds_new _ _ _ ex_order 60 0 C3 _ _); [vm_compute; apply Permutation_refl|vm_compute; reflexivity].
  - change [CAlloc [] 100; CAlloc [] 40; CFree 0; CAlloc ex_order 60] with (((([] ++ [CAlloc [] 100]) ++ [CAlloc [] 40]) ++ [CFree 0]) ++ [CAlloc ex_order 60]).
    apply holds_on; [|vm_compute; apply Permutation_refl|discriminate]. apply holds_on; [|exact Logic.I|discriminate].
    refine (holds_new _ ([] ++ [CAlloc [] 100]) (do_call (CAlloc [] 100) (new_pool (Some 4096) 4096)) [] 40 1 _ _ _); [apply calls_snoc; [constructor|cbn; reflexivity]|vm_compute; constructor|vm_compute; reflexivity].
Qed.
Lemma C106_hypotheses : usual_pool 4096 4096 /\ Forall small ex_calls /\ holds (new_pool (Some 4096) 4096) ex_calls ex_pool 0 60 /\
  holds (new_pool (Some 4096) 4096) ex_calls ex_pool 1 40 /\ get_block_ptr 0 ex_pool = Some 4096 /\ get_block_ptr 1 ex_pool = Some 4288.
Proof.
  split. { unfold usual_pool. split; [exists 64; lia|]. split; [lia|]. split; [exists 128; lia|]. lia. }
  split; [unfold ex_calls; repeat (apply Forall_cons; [cbn; lia|]); constructor|]. split; [apply ex_holds|]. split; [apply ex_holds|]. split; vm_compute; reflexivity.
Qed.

(** ** C107: freed memory is used again, the best-fitting block first *)
Theorem C107_best_fit : forall base P l q order size, usual_pool base P -> Forall small l -> calls (new_pool (Some base) P) l q ->
  Permutation order (p_free q) -> 0 <= size <= 2 ^ 32 - 64 ->
  (exists need, size + 32 <= need <= size + 63 /\
   match fst (allocate_block order size q) with
   | Some id =>
       (exists b, In b (p_free q) /\ b_id b = id /\ need <= b_size b /\ (forall c, In c (p_free q) -> need <= b_size c -> b_size b <= b_size c)) \/
       ((forall c, In c (p_free q) -> b_size c < need) /\ need < p_remain q /\ forall c, In c (p_free q ++ p_used q) -> b_id c <> id)
   | None => (forall c, In c (p_free q) -> b_size c < need) /\ p_remain q <= need /\ snd (allocate_block order size q) = q
   end).
Proof.
  intros base P l q order size U S H Hp Hs. assert (I : pool_inv P q) by (eapply inv_calls; [apply usual_inv, U|exact H|apply small_same, S]).
  exists (align_size size). split; [destruct (need_ok size Hs); lia|].
  destruct (alloc_cases P order size q I Hp Hs) as [(b & Hb & Nb & Mb & E)|(Nf & [(R & q' & E & _)|(R & E)])]; rewrite E; cbn [fst snd].
  - left. exists b. auto.
  - right. split; [exact Nf|]. split; [exact R|]. intros c Hc. destruct (i_ok _ _ I c) as (K & _); [|lia].
    apply in_app_or in Hc. apply in_or_app. tauto.
  - auto.
Qed.
(** What was held and given back serves every request that is not larger. *)
Theorem C107_reuse : forall base P l q i s order size, usual_pool base P -> Forall small l -> holds (new_pool (Some base) P) l q i s ->
  Permutation order (p_free (free_block i q)) -> 0 <= size <= s ->
  exists id q', allocate_block order size (free_block i q) = (Some id, q') /\ p_cur q' = p_cur q /\ p_remain q' = p_remain q.
Proof.
  intros base P l q i s order size U S H Hp Hs. destruct (holds_used P _ _ _ _ _ (usual_inv _ _ U) H S) as (I & b & Hb & Eb & Rb).
  assert (If : pool_inv P (free_block i q)) by (apply inv_free, I).
  destruct (used_ptr P q b I Hb) as [Ef G]. rewrite Eb in Ef, G.
  assert (Bid : 0 <= i) by (destruct (i_ok _ _ I b ltac:(apply in_or_app; left; exact Hb)) as (K & _); lia).
  assert (Sz : 0 <= s <= 2 ^ 32 - 64).
  { clear - H S. induction H as [l q order size id H F A|l q id size c H IH F N]; rewrite Forall_app in S; destruct S as [S1 S2]; [exact (Forall_inv S2)|auto]. }
  assert (Ff : free_block i q = mkPool (p_next q) (p_base q) (p_cur q) (p_remain q) (drop_id i (p_used q)) (b :: p_free q)).
  { unfold free_block. replace (i <? 0) with false by lia. rewrite Ef. reflexivity. }
  destruct (alloc_cases P order size (free_block i q) If Hp ltac:(lia)) as [(c & Hc & Nc & Mc & E)|(Nf & _)].
  - eexists _, _. split; [exact E|]. rewrite Ff. cbn. auto.
  - exfalso. specialize (Nf b). rewrite Ff in Nf. cbn [p_free] in Nf. specialize (Nf (or_introl eq_refl)).
    destruct (i_req _ _ I b Hb) as [_ R1]. destruct (i_ok _ _ I b ltac:(apply in_or_app; left; exact Hb)) as (_ & _ & _ & _ & K5).
    (* the block is a whole number of 32 bytes, at least those of [s] *)
    assert (M : align_size size <= align_size s).
    { unfold align_size. rewrite !(u32_id (_ + 31)) by lia. rewrite !u32_id by (Z.to_euclidean_division_equations; lia). Z.to_euclidean_division_equations; lia. }
    assert (B : align_size s <= b_size b).
    { clear - H Hb Eb Rb U S I. assert (Sz : forall l q id s, holds (new_pool (Some base) P) l q id s -> Forall small l -> forall b, In b (p_used q) -> b_id b = id -> align_size s <= b_size b).
      { clear - U. intros l q id s H. induction H as [l q order size id H F A|l q id size c H IH F N]; intros S b Hb Eb.
        - assert (S' := S). rewrite Forall_app in S'. destruct S' as [S1 S2]. assert (Sz := Forall_inv S2). cbn in Sz, F.
          assert (I : pool_inv P q) by (eapply inv_calls; [apply usual_inv, U|exact H|apply small_same, S1]). cbn [do_call answer] in *. rewrite u32_id in * by lia.
          destruct (answer_new P order size q id I F Sz A) as (_ & Nu & _).
          destruct (alloc_cases P order size q I F Sz) as [(c & Hc & Nc & Mc & E)|(_ & [(_ & q' & E & _ & c & Eu & Ec & _ & Es)|(_ & E)])]; rewrite E in *; cbn [fst snd] in *.
          + cbn [p_used] in Hb. destruct Hb as [<-|Hb]; [exact Nc|]. exfalso. exact (Nu b Hb Eb).
          + rewrite Eu in Hb. destruct Hb as [<-|Hb]; [lia|]. exfalso. exact (Nu b Hb Eb).
          + discriminate.
        - rewrite Forall_app in S. destruct S as [S1 S2]. assert (Sc := Forall_inv S2).
          destruct (holds_used P _ _ _ _ _ (usual_inv _ _ U) H S1) as (I & d & Hd & Ed & Rd).
          assert (X : d = b); [|subst b; eapply (IH S1); [exact Hd|exact Ed]].
          assert (I' : pool_inv P (do_call c q)) by (apply inv_call; [exact I|exact F|destruct c; exact Sc]).
          eapply sep_same_id; [exact (i_sep _ _ I')|apply in_or_app; left; apply (used_stays P); auto; congruence|apply in_or_app; left; exact Hb|congruence]. }
      eapply Sz; [exact H|exact S|exact Hb|exact Eb]. }
    lia.
Qed.
(** Taking and giving back for ever: once a block of [s] bytes was given back, no request up to [s] is ever refused. *)
Theorem C107_no_leak : forall base P l q i s sizes ids r, usual_pool base P -> Forall small l -> holds (new_pool (Some base) P) l q i s ->
  Forall (fun z => 0 <= z <= s) sizes -> take_and_give (free_block i q) sizes ids r ->
  Forall (fun id => id <> None) ids /\ p_remain r = p_remain q.
Proof.
  intros base P l q i s sizes ids r U S H Hz T. destruct (holds_used P _ _ _ _ _ (usual_inv _ _ U) H S) as (I & b & Hb & Eb & Rb).
  assert (Sz : 0 <= s <= 2 ^ 32 - 64).
  { clear - H S. induction H as [l q order size id H F A|l q id size c H IH F N]; rewrite Forall_app in S; destruct S as [S1 S2]; [exact (Forall_inv S2)|auto]. }
  (* a free block large enough for [s] is kept *)
  assert (K : exists b, In b (p_free (free_block i q)) /\ align_size s <= b_size b).
  { destruct (C107_reuse base P l q i s (p_free (free_block i q)) s U S H (Permutation_refl _) ltac:(lia)) as (id & q' & E & Ec & Er).
    assert (If : pool_inv P (free_block i q)) by (apply inv_free, I).
    destruct (alloc_cases P (p_free (free_block i q)) s _ If (Permutation_refl _) Sz) as [(c & Hc & Nc & _)|(Nf & [(R & q2 & E2 & Efr & c & Eu & _)|(R & E2)])].
    - exists c. auto.
    - exfalso. destruct (need_ok s Sz) as (_ & _ & B2). assert (X := E2). unfold allocate_block in X. cbv zeta in X.
      destruct (best_fit (p_free (free_block i q)) (align_size s)) as [d|] eqn:Ed.
      + destruct (fit_some _ _ _ Ed) as (Hd & Nd & _). specialize (Nf d Hd). lia.
      + unfold allocate_block in E. cbv zeta in E. rewrite Ed in E. destruct (_ <? _) in E; [|discriminate]. injection E as _ <-. cbn in Ec.
        assert (Hc : p_cur (free_block i q) = p_cur q) by (unfold free_block; destruct (i <? 0); [reflexivity|destruct (find_id i (p_used q)); reflexivity]).
        assert (Hc0 := i_cur0 _ _ I). assert (Hb0 := i_base0 _ _ I). assert (Ht := i_top _ _ I). assert (R1 := i_rem _ _ I). assert (R0 := i_rem0 _ _ I).
        destruct (ptr_ok (p_cur (free_block i q)) ltac:(lia) ltac:(rewrite Hc; apply I)) as [_ B3]. rewrite u64_id in Ec by lia. lia.
    - congruence. }
  assert (If : pool_inv P (free_block i q)) by (apply inv_free, I).
  assert (Er : p_remain (free_block i q) = p_remain q) by (unfold free_block; destruct (i <? 0); [reflexivity|destruct (find_id i (p_used q)); reflexivity]).
  rewrite <- Er. clear Er H I Hb. revert If K Hz. induction T as [p|p order size sizes id q1 ids r Hp Ha T IH]; intros If K Hz.
  - split; [constructor|reflexivity].
  - assert (Hs := Forall_inv Hz). apply Forall_inv_tail in Hz. cbn in Hs. rewrite u32_id in Ha by lia. destruct K as (d & Hd & Nd).
    assert (M : align_size size <= align_size s).
    { unfold align_size. rewrite !(u32_id (_ + 31)) by lia. rewrite !u32_id by (Z.to_euclidean_division_equations; lia). Z.to_euclidean_division_equations; lia. }
    destruct (alloc_cases P order size p If Hp ltac:(lia)) as [(c & Hc & Nc & Mc & E)|(Nf & _)]; [|specialize (Nf d Hd); lia].
    rewrite E in Ha. injection Ha as <- <-.
    assert (Iq := inv_alloc P order size p If Hp ltac:(lia)). rewrite E in Iq. cbn [snd] in Iq.
    set (q1 := mkPool (p_next p) (p_base p) (p_cur p) (p_remain p) (mkBlock (b_id c) (b_size c) size (b_addr c) :: p_used p) (drop_id (b_id c) (p_free p))) in *.
    assert (Kc : 0 <= b_id c) by (destruct (i_ok _ _ If c ltac:(apply in_or_app; right; exact Hc)) as (X & _); lia).
    assert (Ff : free_block (b_id c) q1 = mkPool (p_next p) (p_base p) (p_cur p) (p_remain p) (drop_id (b_id c) (p_used q1)) (mkBlock (b_id c) (b_size c) size (b_addr c) :: drop_id (b_id c) (p_free p))).
    { unfold free_block. replace (b_id c <? 0) with false by lia. unfold q1 at 1. cbn [p_used find_id find]. unfold find_id. cbn. rewrite Z.eqb_refl. reflexivity. }
    destruct (IH ltac:(apply inv_free, Iq)) as [A B]; [|exact Hz|].
    + rewrite Ff. cbn [p_free]. destruct (Z.eq_dec (b_id d) (b_id c)) as [Ei|Ni].
      * eexists. split; [left; reflexivity|]. cbn. assert (X : d = c) by (eapply sep_same_id; [exact (i_sep _ _ If)|apply in_or_app; right; exact Hd|apply in_or_app; right; exact Hc|exact Ei]). subst d. exact Nd.
      * exists d. split; [right; apply drop_in; auto|exact Nd].
    + split; [constructor; [discriminate|exact A]|]. rewrite B, Ff. reflexivity.
Qed.
(** Neighbouring freed blocks are not joined: 100 bytes are refused with the whole pool of 256 bytes free. *)
Definition split_calls : list call := [CAlloc [] 32; CAlloc [] 32; CAlloc [] 32; CFree 0; CFree 1; CFree 2].
Definition split_pool : pool := fold_left (fun q c => do_call c q) split_calls (new_pool (Some 4096) 256).
Theorem C107_fragments_refuted : calls (new_pool (Some 4096) 256) split_calls split_pool /\ p_used split_pool = [] /\
  forall order, Permutation order (p_free split_pool) -> allocate_block order 100 split_pool = (None, split_pool).
Proof.
  split.
  { unfold split_pool, split_calls. cbn [fold_left].
    change [CAlloc [] 32; CAlloc [] 32; CAlloc [] 32; CFree 0; CFree 1; CFree 2] with (((((([] ++ [CAlloc [] 32]) ++ [CAlloc [] 32]) ++ [CAlloc [] 32]) ++ [CFree 0]) ++ [CFree 1]) ++ [CFree 2]).
    repeat (apply calls_snoc; [|vm_compute; solve [exact Logic.I|constructor]]). constructor. }
  split; [vm_compute; reflexivity|]. intros order Hp.
  assert (I : pool_inv 256 split_pool).
  { unfold split_pool, split_calls. cbn [fold_left]. repeat (apply inv_call; [|vm_compute; solve [exact Logic.I|constructor]|cbn; try exact Logic.I; lia]).
    apply inv_new; try lia; [exists 64|exists 8]; reflexivity. }
  destruct (alloc_cases 256 order 100 split_pool I Hp ltac:(lia)) as [(c & Hc & Nc & _)|(_ & [(R & _)|(_ & E)])]; [| |exact E].
  - exfalso. change (align_size 100) with 160 in Nc. vm_compute in Hc. destruct Hc as [<-|[<-|[<-|[]]]]; cbn in Nc; lia.
  - exfalso. vm_compute in R. discriminate.
Qed.
(** A pool the driver could not provide refuses every request. *)
Theorem C107_no_memory : forall P l q order size, calls (new_pool None P) l q -> Permutation order (p_free q) -> answer (CAlloc order size) q = None.
Proof.
  intros P l q order size H Hp.
  assert (E : q = new_pool None P).
  { clear Hp. induction H as [|l q c H IH F]; [reflexivity|]. subst q. destruct c as [o z|z|z]; cbn [do_call].
    - cbn in F. symmetry in F. apply Permutation_nil in F. subst o. unfold allocate_block. cbv zeta. cbn [best_fit fold_left fst new_pool p_remain].
      unfold best_fit. cbn [fold_left fst]. change (u64 0) with 0. assert (X := Z.mod_pos_bound (u32 (u32 z + 31) / 32 * 32 + 32) (2 ^ 32) ltac:(lia)).
      unfold align_size, u32 at 1. replace (_ <? 0) with false by lia. reflexivity.
    - unfold free_block. destruct (z <? 0); reflexivity.
    - reflexivity. }
  subst q. cbn in Hp. symmetry in Hp. apply Permutation_nil in Hp. subst order. cbn [answer]. unfold allocate_block, best_fit. cbn [fold_left fst new_pool p_remain]. cbv zeta.
  change (u64 0) with 0. assert (X := Z.mod_pos_bound (u32 (u32 size + 31) / 32 * 32 + 32) (2 ^ 32) ltac:(lia)).
  unfold align_size, u32 at 1. replace (_ <? 0) with false by lia. reflexivity.
Qed.
Lemma C107_hypotheses : holds (new_pool (Some 4096) 4096) ex_calls ex_pool 0 60 /\ Permutation (p_free (free_block 0 ex_pool)) (p_free (free_block 0 ex_pool)) /\
  exists r, take_and_give (free_block 0 ex_pool) [60; 1; 59] [Some 0; Some 0; Some 0] r.
Proof.
  split; [apply ex_holds|]. split; [reflexivity|]. eexists.
  eapply tg_cons; [vm_compute; apply Permutation_refl|vm_compute; reflexivity|].
  eapply tg_cons; [vm_compute; apply Permutation_refl|vm_compute; reflexivity|].
  eapply tg_cons; [vm_compute; apply Permutation_refl|vm_compute; reflexivity|]. vm_compute. constructor.
Qed.

(** ** C108: storages of the Ascend allocator *)
Definition start (base P : Z) : alloc_state := mkAlloc (new_pool (Some base) P) [].
Lemma start_inv base P : usual_pool base P -> alloc_inv P (start base P).
Proof. intro U. constructor; [apply usual_inv, U|intros a id []]. Qed.
Theorem C108_storages : forall base P l s a z b y, usual_pool base P -> Forall small_event l ->
  alive (start base P) l s a z -> alive (start base P) l s b y ->
  (64 | a) /\ base <= a /\ a + z + 32 <= base + P /\ (a = b \/ a + z <= b \/ b + y <= a) /\ (a = b -> z = y).
Proof.
  intros base P l s a z b y U S H1 H2. assert (I0 := start_inv _ _ U).
  destruct (alive_used P _ _ _ _ _ I0 H1 S) as (AI & c & Hc & Mc & Ac & Rc). destruct (alive_used P _ _ _ _ _ I0 H2 S) as (_ & d & Hd & Md & Ad & Rd).
  assert (I := ai_pool _ _ AI). destruct (i_ok _ _ I c ltac:(apply in_or_app; left; exact Hc)) as (K1 & K2 & K3 & K4 & K5).
  assert (Eq : p_base (a_pool s) = base).
  { clear - H1. assert (H := alive_events _ _ _ _ _ H1). clear H1. induction H as [|l s e H IH F]; [reflexivity|]. rewrite <- IH.
    assert (A : forall o z q, p_base (snd (allocate_block o z q)) = p_base q) by (intros; unfold allocate_block; cbv zeta; destruct (best_fit _ _); [reflexivity|destruct (_ <? _); reflexivity]).
    assert (B : forall z q, p_base (free_block z q) = p_base q) by (intros; unfold free_block; destruct (_ <? _); [reflexivity|destruct (find_id _ _); reflexivity]).
    destruct e as [o x|x|e]; cbn [do_event].
    - unfold storage_alloc. specialize (A o (u32 x) (a_pool s)). destruct (allocate_block o (u32 x) (a_pool s)) as [[id|] p]; cbn [snd] in A; [|exact A].
      destruct (id <? 0); [exact A|]. destruct (get_block_ptr id p) as [v|]; [destruct (v =? 0)|]; cbn; rewrite ?B; exact A.
    - unfold storage_free. destruct (x =? 0); [reflexivity|]. destruct (map_find x (a_map s)) as [v|]; [|reflexivity]. cbn. destruct (0 <=? v); [apply B|reflexivity].
    - cbn. destruct e; cbn [do_call]; [apply A|apply B|reflexivity]. }
  split; [congruence|]. split; [lia|]. split. { assert (R := i_rem _ _ I). assert (R0 := i_rem0 _ _ I). rewrite Eq in R. destruct (i_req _ _ I c Hc). lia. }
  destruct (Z.eq_dec a b) as [->|N].
  - assert (c = d) by (apply (same_place P (a_pool s)); auto; congruence). subst d. split; [left; reflexivity|congruence].
  - split; [|congruence]. right.
    assert (A : apart c d) by (eapply sep_pair; [exact (i_sep _ _ I)|apply in_or_app; left; exact Hc|apply in_or_app; left; exact Hd|]; intro E; apply N;
      assert (c = d) by (eapply sep_same_id; [exact (i_sep _ _ I)|apply in_or_app; left; exact Hc|apply in_or_app; left; exact Hd|exact E]); congruence).
    destruct (i_req _ _ I c Hc) as [_ R1]. destruct (i_req _ _ I d Hd) as [_ R2]. unfold apart in A. lia.
Qed.
(** A new storage never gets an address that is alive. *)
Theorem C108_fresh : forall base P l s a z order size, usual_pool base P -> Forall small_event l -> alive (start base P) l s a z ->
  Permutation order (p_free (a_pool s)) -> 0 <= size <= 2 ^ 32 - 64 -> fst (storage_alloc order size s) <> Some a.
Proof.
  intros base P l s a z order size U S H Hp Hs E. destruct (alive_used P _ _ _ _ _ (start_inv _ _ U) H S) as (AI & c & Hc & Mc & Ac & Rc).
  destruct (storage_cases P order size s AI Hp Hs) as [X|(b & p & E1 & Ip & Eu & Er & Nu & X)]; rewrite X in E; cbn in E; [discriminate|]. injection E as E.
  assert (Y : c = b) by (apply (same_place P p); [exact Ip|rewrite Eu; right; exact Hc|rewrite Eu; left; reflexivity|congruence]). subst c. exact (Nu b Hc eq_refl).
Qed.
(** The size is cut to 32 bits: in a pool of 1 GiB a storage of 4 GiB and one byte is granted, and the next one begins 64 bytes behind it. *)
Definition cut_state : alloc_state := do_event (SAlloc [] 1) (do_event (SAlloc [] (2 ^ 32 + 1)) (start 4096 (2 ^ 30))).
Theorem C108_large_refuted : alive (start 4096 (2 ^ 30)) [SAlloc [] (2 ^ 32 + 1); SAlloc [] 1] cut_state 4096 (2 ^ 32 + 1) /\
  alive (start 4096 (2 ^ 30)) [SAlloc [] (2 ^ 32 + 1); SAlloc [] 1] cut_state 4160 1 /\ 4160 < 4096 + (2 ^ 32 + 1).
Proof.
  split; [|split; [|lia]].
  - change [SAlloc [] (2 ^ 32 + 1); SAlloc [] 1] with (([] ++ [SAlloc [] (2 ^ 32 + 1)]) ++ [SAlloc [] 1]). unfold cut_state. apply alive_on; [|vm_compute; constructor|discriminate].
    apply alive_new; [constructor|cbn; reflexivity|vm_compute; reflexivity].
  - change [SAlloc [] (2 ^ 32 + 1); SAlloc [] 1] with ([SAlloc [] (2 ^ 32 + 1)] ++ [SAlloc [] 1]). unfold cut_state.
    apply alive_new; [|vm_compute; constructor|vm_compute; reflexivity].
    change [SAlloc [] (2 ^ 32 + 1)] with ([] ++ [SAlloc [] (2 ^ 32 + 1)]). apply events_snoc; [constructor|cbn; reflexivity].
Qed.
Lemma C108_hypotheses : alive (start 4096 4096) [SAlloc [] 100; SAlloc [] 10] (do_event (SAlloc [] 10) (do_event (SAlloc [] 100) (start 4096 4096))) 4096 100 /\
  alive (start 4096 4096) [SAlloc [] 100; SAlloc [] 10] (do_event (SAlloc [] 10) (do_event (SAlloc [] 100) (start 4096 4096))) 4288 10.
Proof.
  split.
  - change [SAlloc [] 100; SAlloc [] 10] with (([] ++ [SAlloc [] 100]) ++ [SAlloc [] 10]). apply alive_on; [|vm_compute; constructor|discriminate].
    apply alive_new; [constructor|cbn; reflexivity|vm_compute; reflexivity].
  - change [SAlloc [] 100; SAlloc [] 10] with ([SAlloc [] 100] ++ [SAlloc [] 10]). apply alive_new; [|vm_compute; constructor|vm_compute; reflexivity].
    change [SAlloc [] 100] with ([] ++ [SAlloc [] 100]). apply events_snoc; [constructor|cbn; reflexivity].
Qed.

Print Assumptions C106_disjoint.
Print Assumptions C106_inside.
Print Assumptions C106_stable.
Print Assumptions C106_odd_pool_refuted.
Print Assumptions C106_big_refuted.
Print Assumptions C107_best_fit.
Print Assumptions C107_reuse.
Print Assumptions C107_no_leak.
Print Assumptions C107_fragments_refuted.
Print Assumptions C107_no_memory.
Print Assumptions C108_storages.
Print Assumptions C108_fresh.
Print Assumptions C108_large_refuted.
