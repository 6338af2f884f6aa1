(** Invariant of the Ascend pool. *)
From Verif Require Import Base AscModel.
Local Open Scope Z_scope.

Definition apart (b c : block) : Prop := b_addr b + b_size b <= b_addr c \/ b_addr c + b_size c <= b_addr b.
Lemma apart_sym b c : apart b c -> apart c b. Proof. unfold apart. lia. Qed.
Definition block_ok (p : pool) (b : block) : Prop :=
  0 <= b_id b < p_next p /\ p_base p <= b_addr b /\ (64 | b_addr b) /\ b_addr b + b_size b <= p_cur p /\ 32 <= b_size b <= 2 ^ 32.
(** distinct ids and places, as an ordered-pairs property of the list *)
Inductive sep : list block -> Prop :=
| sep_nil : sep []
| sep_cons : forall b l, (forall c, In c l -> b_id b <> b_id c /\ apart b c) -> sep l -> sep (b :: l).

Record pool_inv (P : Z) (p : pool) : Prop := {
  i_base : (64 | p_base p); i_base0 : 0 < p_base p; i_P : (32 | P); i_P0 : 0 <= P <= 2 ^ 36; i_top : p_base p + P <= 2 ^ 63;
  i_cur : (32 | p_cur p); i_cur0 : p_base p <= p_cur p;
  i_rem : p_remain p = p_base p + P - p_cur p; i_rem0 : 0 <= p_remain p;
  i_next : 0 <= p_next p; i_ids : 32 * p_next p <= p_cur p - p_base p;
  i_ok : forall b, In b (p_used p ++ p_free p) -> block_ok p b;
  i_sep : sep (p_used p ++ p_free p);
  i_req : forall b, In b (p_used p) -> 0 <= b_req b /\ b_req b + 32 <= b_size b }.

Lemma sep_perm l m : Permutation l m -> sep l -> sep m.
Proof.
  induction 1; intro S.
  - exact S.
  - inversion S; subst. constructor; [|auto]. intros c Hc. apply H2. eapply Permutation_in; [symmetry; exact H|exact Hc].
  - inversion S as [|? ? A1 S1]; subst. inversion S1 as [|? ? A2 S2]; subst. constructor.
    + intros c [<-|Hc]; [|auto]. destruct (A1 x (or_introl eq_refl)) as [N D]. split; [congruence|apply apart_sym, D].
    + constructor; [|exact S2]. intros c Hc. apply A1. right. exact Hc.
  - auto.
Qed.
Lemma sep_nodup l : sep l -> NoDup (map b_id l).
Proof.
  induction 1 as [|b l A S IH]; cbn; constructor; [|exact IH]. rewrite in_map_iff. intros (c & E & Hc). destruct (A c Hc). congruence.
Qed.
Lemma sep_pair l b c : sep l -> In b l -> In c l -> b_id b <> b_id c -> apart b c.
Proof.
  induction 1 as [|d l A S IH]; intros Hb Hc N; [destruct Hb|]. destruct Hb as [<-|Hb], Hc as [<-|Hc].
  - congruence.
  - apply A, Hc.
  - apply apart_sym, A, Hb.
  - auto.
Qed.
Lemma sep_same_id l b c : sep l -> In b l -> In c l -> b_id b = b_id c -> b = c.
Proof.
  induction 1 as [|d l A S IH]; intros Hb Hc N; [destruct Hb|]. destruct Hb as [<-|Hb], Hc as [<-|Hc].
  - reflexivity.
  - destruct (A c Hc). congruence.
  - destruct (A b Hb). congruence.
  - auto.
Qed.
Lemma sep_app_l l m : sep (l ++ m) -> sep l.
Proof. induction l as [|b l IH]; cbn; intro S; [constructor|]. inversion S; subst. constructor; [|auto]. intros c Hc. apply H1, in_or_app. auto. Qed.
Lemma sep_app_r l m : sep (l ++ m) -> sep m.
Proof. induction l as [|b l IH]; cbn; intro S; [exact S|]. inversion S; subst. auto. Qed.
Lemma sep_replace l b b' : b_id b' = b_id b -> b_addr b' = b_addr b -> b_size b' = b_size b -> sep (b :: l) -> sep (b' :: l).
Proof. intros E1 E2 E3 S. inversion S; subst. constructor; [|assumption]. intros c Hc. destruct (H1 c Hc) as [N D]. rewrite E1. split; [exact N|]. unfold apart in *. rewrite E2, E3. exact D. Qed.

Lemma find_in id l b : find_id id l = Some b -> In b l /\ b_id b = id.
Proof. unfold find_id. intro H. apply find_some in H. destruct H as [H1 H2]. split; [exact H1|lia]. Qed.
Lemma find_none id l : find_id id l = None -> forall b, In b l -> b_id b <> id.
Proof. unfold find_id. intros H b Hb. assert (X := find_none _ _ H b Hb). cbn in X. lia. Qed.
Lemma find_sep l b : NoDup (map b_id l) -> In b l -> find_id (b_id b) l = Some b.
Proof.
  intros N Hb. destruct (find_id (b_id b) l) as [c|] eqn:E.
  - destruct (find_in _ _ _ E) as [Hc Ec]. f_equal. clear E. induction l as [|d l IH]; [destruct Hb|]. cbn in N. inversion N as [|? ? H1 H2]; subst.
    destruct Hb as [<-|Hb], Hc as [<-|Hc]; auto.
    + exfalso. apply H1. rewrite <- Ec. apply in_map, Hc.
    + exfalso. apply H1. rewrite Ec. apply in_map, Hb.
  - exfalso. exact (find_none _ _ E b Hb eq_refl).
Qed.
Lemma drop_in id l b : In b (drop_id id l) <-> In b l /\ b_id b <> id.
Proof. unfold drop_id. rewrite filter_In. split; intros [H1 H2]; (split; [exact H1|lia]). Qed.
Lemma drop_perm l b : NoDup (map b_id l) -> In b l -> Permutation l (b :: drop_id (b_id b) l).
Proof.
  induction l as [|c l IH]; intros N Hb; [destruct Hb|]. cbn in N. inversion N as [|? ? H1 H2]; subst. destruct Hb as [->|Hb].
  - cbn. rewrite Z.eqb_refl. cbn. constructor. assert (E : drop_id (b_id b) l = l); [|unfold drop_id in E; rewrite E; reflexivity].
    unfold drop_id. clear - H1. induction l as [|d l IH]; [reflexivity|]. cbn. cbn in H1.
    replace (b_id d =? b_id b) with false by (symmetry; apply Z.eqb_neq; intro; apply H1; auto). cbn. f_equal. apply IH. tauto.
  - cbn. assert (b_id c <> b_id b) by (intro E; apply H1; rewrite E; apply in_map, Hb).
    replace (b_id c =? b_id b) with false by lia. cbn. rewrite (IH H2 Hb) at 1. apply perm_swap.
Qed.
Lemma drop_other id l : (forall b, In b l -> b_id b <> id) -> drop_id id l = l.
Proof. unfold drop_id. induction l as [|d l IH]; intro H; [reflexivity|]. cbn. replace (b_id d =? id) with false by (specialize (H d (or_introl eq_refl)); lia). cbn. f_equal. apply IH. intros b Hb. apply H. right. exact Hb. Qed.

(** ** Best fit *)
Lemma fit_fold need order : forall st, (forall b, fst st = Some b -> b_size b = snd st /\ need <= b_size b) ->
  let r := fold_left (fun st b => if (need <=? b_size b) && (b_size b <? snd st) then (Some b, b_size b) else st) order st in
  (forall b, fst r = Some b -> (In b order \/ fst st = Some b) /\ need <= b_size b /\ b_size b = snd r) /\
  snd r <= snd st /\ (forall c, In c order -> need <= b_size c -> snd r <= b_size c) /\
  (fst r = None -> fst st = None /\ (forall c, In c order -> need <= b_size c -> snd st <= b_size c)).
Proof.
  induction order as [|d order IH]; intros st Hst; cbn [fold_left].
  - split; [|split; [lia|split; [intros c []|]]].
    + intros b Hb. split; [auto|]. destruct (Hst b Hb). lia.
    + intro H. split; [exact H|intros c []].
  - destruct ((need <=? b_size d) && (b_size d <? snd st)) eqn:C.
    + apply andb_true_iff in C. destruct C as [C1 C2].
      destruct (IH (Some d, b_size d)) as (A & B & Cc & D). { intros b Hb. injection Hb as <-. cbn. lia. }
      cbn [fst snd] in *. split; [|split; [lia|split]].
      * intros b Hb. destruct (A b Hb) as ([I|I] & N & E); (split; [|split; [exact N|exact E]]); [left; right; exact I|left; left; congruence].
      * intros c [<-|Hc] N; [lia|auto].
      * intro H. destruct (D H) as [X _]. discriminate.
    + destruct (IH st Hst) as (A & B & Cc & D). split; [|split; [lia|split]].
      * intros b Hb. destruct (A b Hb) as ([I|I] & N & E); (split; [|split; [exact N|exact E]]); [left; right; exact I|right; exact I].
      * intros c [<-|Hc] N; [|auto]. apply andb_false_iff in C. lia.
      * intro H. destruct (D H) as [X Y]. split; [exact X|]. intros c [<-|Hc] N; [|auto]. apply andb_false_iff in C. lia.
Qed.
Lemma fit_some order need b : best_fit order need = Some b ->
  In b order /\ need <= b_size b /\ forall c, In c order -> need <= b_size c -> b_size b <= b_size c.
Proof.
  unfold best_fit. intro H. assert (X := fit_fold need order (None, 2 ^ 64 - 1)). cbn [fst snd] in X.
  destruct X as (A & _ & C & _). { intros c Hc. discriminate. }
  destruct (A b H) as ([I|I] & N & E); [|discriminate]. split; [exact I|]. split; [exact N|]. intros c Hc Nc. rewrite E. auto.
Qed.
Lemma fit_none order need : best_fit order need = None -> forall c, In c order -> b_size c < 2 ^ 64 - 1 -> b_size c < need.
Proof.
  unfold best_fit. intros H c Hc Sc. assert (X := fit_fold need order (None, 2 ^ 64 - 1)). cbn [fst snd] in X.
  destruct X as (_ & _ & _ & D). { intros d Hd. discriminate. }
  destruct (D H) as [_ Y]. destruct (Z.lt_ge_cases (b_size c) need) as [L|L]; [exact L|]. specialize (Y c Hc L). lia.
Qed.

(** ** Arithmetic *)
Lemma u32_id x : 0 <= x < 2 ^ 32 -> u32 x = x. Proof. intro. apply Z.mod_small. lia. Qed.
Lemma u64_id x : 0 <= x < 2 ^ 64 -> u64 x = x. Proof. intro. apply Z.mod_small. lia. Qed.
Lemma s32_id x : 0 <= x < 2 ^ 31 -> s32 x = x. Proof. intro. unfold s32. rewrite u32_id by lia. replace (x <? 2 ^ 31) with true by lia. reflexivity. Qed.
Lemma s64_id x : 0 <= x < 2 ^ 63 -> s64 x = x. Proof. intro. unfold s64. rewrite u64_id by lia. replace (x <? 2 ^ 63) with true by lia. reflexivity. Qed.
Lemma need_ok size : 0 <= size <= 2 ^ 32 - 64 ->
  (32 | align_size size) /\ size + 32 <= align_size size <= size + 63 /\ 32 <= align_size size <= 2 ^ 32.
Proof.
  intro H. unfold align_size. rewrite (u32_id (size + 31)) by lia. assert (B : size <= (size + 31) / 32 * 32 <= size + 31) by (Z.to_euclidean_division_equations; lia).
  rewrite u32_id by lia. split; [exists ((size + 31) / 32 + 1); ring|]. lia.
Qed.
Lemma ptr_ok c : 0 <= c < 2 ^ 64 - 64 -> (32 | c) -> (64 | align_ptr c) /\ c <= align_ptr c <= c + 32.
Proof.
  intros H [k D]. unfold align_ptr. rewrite u64_id by lia. split; [exists ((c + 63) / 64); ring|]. subst c. Z.to_euclidean_division_equations; lia.
Qed.

(** ** The calls keep the invariant *)
Lemma inv_new base P : (64 | base) -> 0 < base -> (32 | P) -> 0 <= P <= 2 ^ 36 -> base + P <= 2 ^ 63 -> pool_inv P (new_pool (Some base) P).
Proof.
  intros H1 H2 H3 H4 H5. unfold new_pool. rewrite s64_id by lia. constructor; cbn; auto; try lia.
  - destruct H1 as [k ->]. exists (2 * k). ring.
  - constructor.
Qed.
Lemma inv_alloc P order size p : pool_inv P p -> Permutation order (p_free p) -> 0 <= size <= 2 ^ 32 - 64 ->
  pool_inv P (snd (allocate_block order size p)).
Proof.
  intros I Hp Hs. destruct (need_ok size Hs) as (D & B1 & B2). unfold allocate_block. set (need := align_size size) in *. cbv zeta.
  destruct (best_fit order need) as [b|] eqn:E; cbn [snd].
  - destruct (fit_some _ _ _ E) as (Hb & Nb & _). assert (Hf : In b (p_free p)) by (eapply Permutation_in; [exact Hp|exact Hb]).
    set (b' := mkBlock (b_id b) (b_size b) size (b_addr b)).
    assert (NF : NoDup (map b_id (p_free p))) by (apply sep_nodup; eapply sep_app_r; exact (i_sep _ _ I)).
    assert (PP := drop_perm _ _ NF Hf). set (fr := drop_id (b_id b) (p_free p)) in *.
    assert (PA : Permutation (p_used p ++ p_free p) (b :: p_used p ++ fr)).
    { rewrite PP. symmetry. apply Permutation_middle. }
    destruct I. constructor; cbn [p_next p_base p_cur p_remain p_used p_free]; auto.
    + intros c Hc. cbn in Hc. assert (X : block_ok p c -> block_ok {| p_next := p_next p; p_base := p_base p; p_cur := p_cur p; p_remain := p_remain p; p_used := b' :: p_used p; p_free := fr |} c)
        by (intro K; exact K). apply X. destruct Hc as [<-|Hc].
      * assert (K := i_ok0 b ltac:(apply in_or_app; auto)). exact K.
      * apply i_ok0. eapply Permutation_in; [symmetry; exact PA|]. right. exact Hc.
    + cbn. apply sep_replace with b; [reflexivity..|]. eapply sep_perm; [exact PA|exact i_sep0].
    + intros c [<-|Hc]; [cbn; lia|auto].
  - assert (Hr : p_remain p <= 2 ^ 36) by (destruct I; lia).
    rewrite u64_id by (destruct I; lia). destruct (need <? p_remain p) eqn:C; cbn [snd]; [|exact I].
    assert (Bc : p_cur p <= 2 ^ 63) by (destruct I; lia).
    destruct (ptr_ok (p_cur p) ltac:(destruct I; lia) (i_cur _ _ I)) as (D2 & B3). set (cur := align_ptr (p_cur p)) in *.
    assert (Dr : p_remain p >= need + 32).
    { destruct D as [a Da]. destruct (i_cur _ _ I) as [k Dk]. destruct (i_P _ _ I) as [m Dm]. destruct (i_base _ _ I) as [n Dn].
      assert (R := i_rem _ _ I). clear - C Da Dk Dm Dn R. lia. }
    rewrite (s64_id (p_remain p - (cur - p_cur p))) by (destruct I; lia). rewrite s64_id by (destruct I; lia). rewrite u64_id by (destruct I; lia).
    assert (Hid : s32 (p_next p) = p_next p) by (apply s32_id; destruct I; lia). rewrite Hid.
    destruct I. constructor; cbn [p_next p_base p_cur p_remain p_used p_free]; auto; try lia.
    + destruct D as [a Da]. destruct D2 as [c Dc]. exists (2 * c + a). lia.
    + intros b Hb. cbn in Hb. destruct Hb as [<-|Hb].
      * unfold block_ok. cbn [b_id b_addr b_size p_next p_base p_cur]. split; [lia|]. split; [lia|]. split; [exact D2|]. lia.
      * destruct (i_ok0 b Hb) as (K1 & K2 & K3 & K4 & K5). unfold block_ok. cbn [b_id b_addr b_size p_next p_base p_cur]. split; [lia|]. split; [lia|]. split; [exact K3|]. lia.
    + cbn. constructor; [|exact i_sep0]. intros c Hc. destruct (i_ok0 c Hc) as (K1 & K2 & K3 & K4 & K5). cbn. split; [lia|]. right. cbn. lia.
    + intros b [<-|Hb]; [cbn; lia|auto].
Qed.
Lemma inv_free P id p : pool_inv P p -> pool_inv P (free_block id p).
Proof.
  intro I. unfold free_block. destruct (id <? 0); [exact I|]. destruct (find_id id (p_used p)) as [b|] eqn:E; [|exact I].
  destruct (find_in _ _ _ E) as [Hb Eb]. subst id.
  assert (NU : NoDup (map b_id (p_used p))) by (apply sep_nodup; eapply sep_app_l; exact (i_sep _ _ I)).
  assert (PP := drop_perm _ _ NU Hb). set (us := drop_id (b_id b) (p_used p)) in *.
  assert (PA : Permutation (p_used p ++ p_free p) (us ++ b :: p_free p)). { rewrite PP at 1. cbn. apply Permutation_middle. }
  destruct I. constructor; cbn [p_next p_base p_cur p_remain p_used p_free]; auto.
  - intros c Hc. apply (i_ok0 c). eapply Permutation_in; [symmetry; exact PA|exact Hc].
  - eapply sep_perm; [exact PA|exact i_sep0].
  - intros c Hc. apply i_req0. unfold us in Hc. rewrite drop_in in Hc. tauto.
Qed.

(** sizes that fit a uint32_t with its padding *)
Definition small_call (c : call) : Prop := match c with CAlloc _ size => 0 <= size <= 2 ^ 32 - 64 | _ => True end.
Lemma inv_call P c p : pool_inv P p -> fair_order c p -> small_call c -> pool_inv P (do_call c p).
Proof.
  intros I F S. destruct c as [order size|id|id]; cbn in *.
  - rewrite u32_id by lia. apply inv_alloc; assumption.
  - apply inv_free, I.
  - exact I.
Qed.
Lemma inv_calls P p l q : pool_inv P p -> calls p l q -> Forall small_call l -> pool_inv P q.
Proof.
  intros I H. induction H as [|l q c H IH F]; intro S; [exact I|]. rewrite Forall_app in S. destruct S as [S1 S2].
  apply inv_call; [auto|exact F|exact (Forall_inv S2)].
Qed.
