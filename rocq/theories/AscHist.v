(** Histories of the Ascend pool. *)
From Verif Require Import Base AscModel AscProofs AscSpec.
Local Open Scope Z_scope.

Lemma usual_inv base P : usual_pool base P -> pool_inv P (new_pool (Some base) P).
Proof. intros (H1 & H2 & H3 & H4 & H5). apply inv_new; assumption. Qed.
Lemma small_same l : Forall small l -> Forall small_call l. Proof. intro H. eapply Forall_impl; [|exact H]. intros [ | | ] X; exact X. Qed.
Lemma holds_calls p0 l q id s : holds p0 l q id s -> calls p0 l q.
Proof. induction 1; (constructor; [assumption|assumption]). Qed.

(** what is used, in terms of the call *)
Lemma alloc_cases P order size p : pool_inv P p -> Permutation order (p_free p) -> 0 <= size <= 2 ^ 32 - 64 ->
  (exists b, In b (p_free p) /\ align_size size <= b_size b /\ (forall c, In c (p_free p) -> align_size size <= b_size c -> b_size b <= b_size c) /\
     allocate_block order size p = (Some (b_id b), mkPool (p_next p) (p_base p) (p_cur p) (p_remain p)
        (mkBlock (b_id b) (b_size b) size (b_addr b) :: p_used p) (drop_id (b_id b) (p_free p)))) \/
  ((forall c, In c (p_free p) -> b_size c < align_size size) /\
   ((align_size size < p_remain p /\ exists q, allocate_block order size p = (Some (p_next p), q) /\ p_free q = p_free p /\
       exists b, p_used q = b :: p_used p /\ b_id b = p_next p /\ b_req b = size /\ b_size b = align_size size) \/
    (p_remain p <= align_size size /\ allocate_block order size p = (None, p)))).
Proof.
  intros I Hp Hs. destruct (need_ok size Hs) as (_ & Bn & _). unfold allocate_block. cbv zeta. destruct (best_fit order (align_size size)) as [b|] eqn:E.
  - left. destruct (fit_some _ _ _ E) as (Hb & Nb & Mb). exists b. split; [eapply Permutation_in; [exact Hp|exact Hb]|]. split; [exact Nb|]. split; [|reflexivity].
    intros c Hc. apply Mb. eapply Permutation_in; [symmetry; exact Hp|exact Hc].
  - right. split.
    + intros c Hc. apply (fit_none _ _ E); [eapply Permutation_in; [symmetry; exact Hp|exact Hc]|].
      destruct (i_ok _ _ I c ltac:(apply in_or_app; right; exact Hc)) as (_ & _ & _ & _ & B). lia.
    + assert (p_remain p <= 2 ^ 36) by (destruct I; lia). rewrite u64_id by (destruct I; lia). destruct (align_size size <? p_remain p) eqn:C.
      * left. split; [lia|]. rewrite s32_id by (destruct I; lia). eexists. split; [reflexivity|]. cbn [p_free p_used]. split; [reflexivity|].
        eexists. split; [reflexivity|]. cbn. auto.
      * right. split; [lia|reflexivity].
Qed.
Lemma answer_new P order size p id : pool_inv P p -> Permutation order (p_free p) -> 0 <= size <= 2 ^ 32 - 64 ->
  fst (allocate_block order size p) = Some id ->
  0 <= id /\ (forall b, In b (p_used p) -> b_id b <> id) /\
  exists b, p_used (snd (allocate_block order size p)) = b :: p_used p /\ b_id b = id /\ b_req b = size.
Proof.
  intros I Hp Hs Hid. destruct (alloc_cases P order size p I Hp Hs) as [(b & Hb & _ & _ & E)|(_ & [(_ & q & E & _ & b & Eu & Ei & Er & _)|(_ & E)])]; rewrite E in *; cbn [fst snd] in *.
  - injection Hid as <-. destruct (i_ok _ _ I b ltac:(apply in_or_app; right; exact Hb)) as (K & _). split; [lia|]. split.
    + intros c Hc X. assert (Y : c = b) by (eapply sep_same_id; [exact (i_sep _ _ I)|apply in_or_app; left; exact Hc|apply in_or_app; right; exact Hb|exact X]).
      subst c. assert (S := i_sep _ _ I). clear - S Hc Hb. induction (p_used p) as [|d u IH]; [destruct Hc|]. cbn in S. inversion S; subst.
      destruct Hc as [<-|Hc]; [|auto]. destruct (H1 d ltac:(apply in_or_app; right; exact Hb)). congruence.
    + eexists. split; [reflexivity|]. split; reflexivity.
  - injection Hid as <-. split; [destruct I; lia|]. split.
    + intros c Hc. destruct (i_ok _ _ I c ltac:(apply in_or_app; left; exact Hc)) as (K & _). lia.
    + exists b. auto.
  - discriminate.
Qed.
(** a used block stays until it is freed *)
Lemma used_stays P c p b : pool_inv P p -> fair_order c p -> small c -> In b (p_used p) -> c <> CFree (b_id b) -> In b (p_used (do_call c p)).
Proof.
  intros I F S Hb N. destruct c as [order size|id|id]; cbn [do_call] in *.
  - cbn in S, F. rewrite u32_id by lia.
    destruct (alloc_cases P order size p I F S) as [(c & _ & _ & _ & E)|(_ & [(_ & q & E & _ & c & Eu & _)|(_ & E)])]; rewrite E; cbn [snd].
    + right. exact Hb.
    + rewrite Eu. right. exact Hb.
    + exact Hb.
  - unfold free_block. destruct (id <? 0); [exact Hb|]. destruct (find_id id (p_used p)); [|exact Hb]. cbn. apply drop_in. split; [exact Hb|congruence].
  - exact Hb.
Qed.
Lemma used_ptr P p b : pool_inv P p -> In b (p_used p) -> find_id (b_id b) (p_used p) = Some b /\ get_block_ptr (b_id b) p = Some (b_addr b).
Proof.
  intros I Hb. assert (E : find_id (b_id b) (p_used p) = Some b) by (apply find_sep; [apply sep_nodup; eapply sep_app_l; exact (i_sep _ _ I)|exact Hb]).
  split; [exact E|]. unfold get_block_ptr. destruct (i_ok _ _ I b ltac:(apply in_or_app; left; exact Hb)) as (K & _).
  replace (b_id b <? 0) with false by lia. rewrite E. reflexivity.
Qed.
Lemma holds_used P p0 l q id s : pool_inv P p0 -> holds p0 l q id s -> Forall small l ->
  pool_inv P q /\ exists b, In b (p_used q) /\ b_id b = id /\ b_req b = s.
Proof.
  intros I0 H. induction H as [l q order size id H F A|l q id size c H IH F N]; intro S.
  - assert (S' := S). rewrite Forall_app in S'. destruct S' as [S1 S2]. assert (Sz := Forall_inv S2). cbn in Sz.
    assert (I : pool_inv P q) by (eapply inv_calls; [exact I0|exact H|apply small_same, S1]).
    split; [apply inv_call; [exact I|exact F|exact Sz]|]. cbn [answer do_call] in *. rewrite u32_id in * by lia.
    destruct (answer_new P order size q id I F Sz A) as (_ & _ & b & Eu & Ei & Er). exists b. rewrite Eu. cbn. auto.
  - rewrite Forall_app in S. destruct S as [S1 S2]. destruct (IH S1) as (I & b & Hb & Ei & Er). assert (Sc := Forall_inv S2).
    split; [apply inv_call; [exact I|exact F|destruct c; exact Sc]|]. exists b. split; [|auto].
    apply (used_stays P); auto. congruence.
Qed.

(** ** Storages *)
Record alloc_inv (P : Z) (s : alloc_state) : Prop := {
  ai_pool : pool_inv P (a_pool s);
  ai_map : forall a id, In (a, id) (a_map s) -> exists b, In b (p_used (a_pool s)) /\ b_id b = id /\ b_addr b = a }.
Lemma map_drop_in a m x : In x (map_drop a m) <-> In x m /\ fst x <> a.
Proof. unfold map_drop. rewrite filter_In. split; intros [H1 H2]; (split; [exact H1|lia]). Qed.
Lemma storage_cases P order size s : alloc_inv P s -> Permutation order (p_free (a_pool s)) -> 0 <= size <= 2 ^ 32 - 64 ->
  (storage_alloc order size s = (None, s) \/
   exists b p, allocate_block order size (a_pool s) = (Some (b_id b), p) /\ pool_inv P p /\ p_used p = b :: p_used (a_pool s) /\ b_req b = size /\
     (forall c, In c (p_used (a_pool s)) -> b_id c <> b_id b) /\
     storage_alloc order size s = (Some (b_addr b), mkAlloc p ((b_addr b, b_id b) :: map_drop (b_addr b) (a_map s)))).
Proof.
  intros [I M] Hp Hs. unfold storage_alloc. rewrite u32_id by lia. destruct (allocate_block order size (a_pool s)) as [[id|] p] eqn:E.
  - right. assert (A : fst (allocate_block order size (a_pool s)) = Some id) by (rewrite E; reflexivity).
    destruct (answer_new P order size _ id I Hp Hs A) as (H0 & Nu & b & Eu & Ei & Er). rewrite E in Eu. cbn [snd] in Eu.
    assert (Ip : pool_inv P p) by (assert (X := inv_alloc P order size _ I Hp Hs); rewrite E in X; exact X).
    exists b, p. rewrite Ei. split; [reflexivity|]. split; [exact Ip|]. split; [exact Eu|]. split; [exact Er|]. split; [exact Nu|].
    assert (Hb : In b (p_used p)) by (rewrite Eu; left; reflexivity). destruct (used_ptr P p b Ip Hb) as [_ G]. rewrite Ei in G.
    replace (id <? 0) with false by lia. rewrite G. destruct (i_ok _ _ Ip b ltac:(apply in_or_app; left; exact Hb)) as (_ & K & _).
    assert (B0 := i_base0 _ _ Ip). replace (b_addr b =? 0) with false by lia. reflexivity.
  - left. destruct (alloc_cases P order size (a_pool s) I Hp Hs) as [(b & _ & _ & _ & X)|(_ & [(_ & q & X & _)|(_ & X)])]; rewrite E in X; try discriminate.
    injection X as ->. destruct s; reflexivity.
Qed.
Lemma inv_event P e s : alloc_inv P s -> fair_event e s -> small_event e -> alloc_inv P (do_event e s).
Proof.
  intros AI F S. destruct e as [order size|a|c]; cbn [do_event fair_event small_event] in *.
  - destruct (storage_cases P order size s AI F S) as [E|(b & p & E1 & Ip & Eu & Er & Nu & E)]; rewrite E; cbn [snd]; [exact AI|].
    constructor; cbn [a_pool a_map]; [exact Ip|]. intros a id [X|X].
    + injection X as <- <-. exists b. rewrite Eu. cbn. auto.
    + rewrite map_drop_in in X. destruct (ai_map _ _ AI a id (proj1 X)) as (c & Hc & E2 & E3). exists c. rewrite Eu. cbn. auto.
  - unfold storage_free. destruct (a =? 0); [exact AI|]. destruct (map_find a (a_map s)) as [id|] eqn:E; [|exact AI].
    unfold map_find in E. destruct (find (fun e => fst e =? a) (a_map s)) as [[a' id']|] eqn:Ef; [|discriminate]. injection E as <-.
    apply find_some in Ef. destruct Ef as [Hin Ha]. cbn in Ha. assert (a' = a) by lia. subst a'. clear Ha.
    destruct (ai_map _ _ AI a id' Hin) as (b & Hb & Eb & Ea).
    assert (K : 0 <= id') by (destruct (i_ok _ _ (ai_pool _ _ AI) b ltac:(apply in_or_app; left; exact Hb)) as (K & _); lia).
    cbn [snd]. replace (0 <=? id') with true by lia. constructor; cbn [a_pool a_map].
    + apply inv_free, AI.
    + intros x id X. rewrite map_drop_in in X. destruct X as [X Nx]. cbn in Nx. destruct (ai_map _ _ AI x id X) as (c & Hc & E2 & E3). exists c. split; [|auto].
      apply (used_stays P (CFree id')); auto; [apply AI|]. intro Y. injection Y as Y.
      assert (c = b) by (eapply sep_same_id; [exact (i_sep _ _ (ai_pool _ _ AI))|apply in_or_app; left; exact Hc|apply in_or_app; left; exact Hb|congruence]). congruence.
  - destruct F as [F Nf]. constructor; cbn [a_pool a_map].
    + apply inv_call; [apply AI|exact F|destruct c; exact S].
    + intros a id X. destruct (ai_map _ _ AI a id X) as (b & Hb & E2 & E3). exists b. split; [|auto]. apply (used_stays P); auto; [apply AI|].
      intro Y. apply (Nf (b_id b) Y). rewrite E2. change id with (snd (a, id)). apply in_map, X.
Qed.
Lemma inv_events P s0 l s : alloc_inv P s0 -> events s0 l s -> Forall small_event l -> alloc_inv P s.
Proof.
  intros I H. induction H as [|l s e H IH F]; intro S; [exact I|]. rewrite Forall_app in S. destruct S as [S1 S2]. apply inv_event; [auto|exact F|exact (Forall_inv S2)].
Qed.
(** two blocks in use at one address are one *)
Lemma same_place P p b c : pool_inv P p -> In b (p_used p) -> In c (p_used p) -> b_addr b = b_addr c -> b = c.
Proof.
  intros I Hb Hc E. destruct (Z.eq_dec (b_id b) (b_id c)) as [Ei|Ni].
  - eapply sep_same_id; [exact (i_sep _ _ I)|apply in_or_app; left; exact Hb|apply in_or_app; left; exact Hc|exact Ei].
  - exfalso. assert (A : apart b c) by (eapply sep_pair; [exact (i_sep _ _ I)|apply in_or_app; left; exact Hb|apply in_or_app; left; exact Hc|exact Ni]).
    destruct (i_ok _ _ I b ltac:(apply in_or_app; left; exact Hb)) as (_ & _ & _ & _ & K1).
    destruct (i_ok _ _ I c ltac:(apply in_or_app; left; exact Hc)) as (_ & _ & _ & _ & K2). unfold apart in A. lia.
Qed.
Lemma alive_events s0 l s a z : alive s0 l s a z -> events s0 l s.
Proof. induction 1; (constructor; [assumption|assumption]). Qed.
Lemma alive_used P s0 l s a z : alloc_inv P s0 -> alive s0 l s a z -> Forall small_event l ->
  alloc_inv P s /\ exists b, In b (p_used (a_pool s)) /\ In (a, b_id b) (a_map s) /\ b_addr b = a /\ b_req b = z.
Proof.
  intros I0 H. induction H as [l s order size a H F A|l s a size e H IH F N]; intro S.
  - assert (S' := S). rewrite Forall_app in S'. destruct S' as [S1 S2]. assert (Sz := Forall_inv S2). cbn in Sz, F.
    assert (AI : alloc_inv P s) by (eapply inv_events; [exact I0|exact H|exact S1]). split; [apply inv_event; assumption|]. cbn [do_event].
    destruct (storage_cases P order size s AI F Sz) as [E|(b & p & E1 & Ip & Eu & Er & Nu & E)]; rewrite E in *; cbn [fst snd] in *; [discriminate|].
    injection A as <-. exists b. cbn [a_pool a_map]. rewrite Eu. cbn. auto.
  - rewrite Forall_app in S. destruct S as [S1 S2]. destruct (IH S1) as (AI & b & Hb & Hm & Ea & Er). assert (Sc := Forall_inv S2).
    split; [apply inv_event; assumption|]. exists b. split; [|split; [|auto]].
    + destruct e as [order z|x|c]; cbn [do_event fair_event small_event] in *.
      * destruct (storage_cases P order z s AI F Sc) as [E|(c & p & E1 & Ip & Eu & Er' & Nu & E)]; rewrite E; cbn; [exact Hb|rewrite Eu; right; exact Hb].
      * unfold storage_free. destruct (x =? 0); [exact Hb|]. destruct (map_find x (a_map s)) as [id|] eqn:E; [|exact Hb].
        unfold map_find in E. destruct (find (fun e => fst e =? x) (a_map s)) as [[x' id']|] eqn:Ef; [|discriminate]. injection E as <-.
        apply find_some in Ef. destruct Ef as [Hin Hx]. cbn in Hx. assert (x' = x) by lia. subst x'. destruct (ai_map _ _ AI x id' Hin) as (c & Hc & Ec & Exc).
        cbn [snd a_pool]. destruct (0 <=? id'); [|exact Hb]. apply (used_stays P (CFree id')); auto; [apply AI|].
        intro Y. injection Y as Y. assert (c = b) by (eapply sep_same_id; [exact (i_sep _ _ (ai_pool _ _ AI))|apply in_or_app; left; exact Hc|apply in_or_app; left; exact Hb|congruence]).
        subst c. congruence.
      * destruct F as [F Nf]. cbn [a_pool]. apply (used_stays P); auto; [apply AI|]. intro Y. apply (Nf (b_id b) Y). change (b_id b) with (snd (a, b_id b)). apply in_map, Hm.
    + destruct e as [order z|x|c]; cbn [do_event fair_event small_event] in *.
      * destruct (storage_cases P order z s AI F Sc) as [E|(c & p & E1 & Ip & Eu & Er' & Nu & E)]; rewrite E; cbn [snd a_map]; [exact Hm|].
        right. rewrite map_drop_in. split; [exact Hm|]. cbn. intro X.
        assert (Y : b = c) by (apply (same_place P p); [exact Ip|rewrite Eu; right; exact Hb|rewrite Eu; left; reflexivity|congruence]).
        subst c. exact (Nu b Hb eq_refl).
      * unfold storage_free. destruct (x =? 0); [exact Hm|]. destruct (map_find x (a_map s)) as [id|]; [|exact Hm]. cbn. rewrite map_drop_in. split; [exact Hm|cbn; congruence].
      * exact Hm.
Qed.
