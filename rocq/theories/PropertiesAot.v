(** Properties of the ahead-of-time QNN runner: C94 - C98. *)
From Verif Require Import Base DTypeModel ParamModel TensorModel GenModel SessModel SessSpec AotModel AotSpec AotProofs AotGraph AotRun AotInv AotSel AotOver AotEntries.
Local Open Scope nat_scope.

(** A small network for the examples: hidden states are integers, one K and V entry per token and head. *)
Section Toy.
Variable HD : nat.
Definition toy_k (l : nat) (x q : Z) : list Z := map (fun i => (x + Z.of_nat i)%Z) (seq 0 HD).
Definition toy_v (l : nat) (x q : Z) : list Z := map (fun i => (2 * x + q + Z.of_nat i)%Z) (seq 0 HD).
Definition toy_mix (l : nat) (x q : Z) (ks vs : list (list Z)) : Z :=
  ((x * 7 + fold_right Z.add 0 (concat ks) + 3 * fold_right Z.add 0 (concat vs)) mod 97)%Z.
Definition toy_logits (x : Z) : list Z := map (fun i => if (Z.of_nat i =? x mod 11)%Z then 1%Z else 0%Z) (seq 0 11).
End Toy.
Definition toy_embed (t : Z) : Z := t.
Definition toy (g : config) := run g toy_embed (toy_k (c_H g * c_D g)) (toy_v (c_H g * c_D g)) toy_mix toy_logits.
Definition toy_best (g : config) := best g toy_embed (toy_k (c_H g * c_D g)) (toy_v (c_H g * c_D g)) toy_mix toy_logits.
Definition toy_expected (g : config) := expected g toy_embed (toy_k (c_H g * c_D g)) (toy_v (c_H g * c_D g)) toy_mix toy_logits.
Definition tokens_of {A} (r : res (A * list Z)) : res (list Z) := do x <- r; ROk (snd x).
Definition g0 : config := mkCfg 2 2 2 12 3.
Definition zeros (n : nat) : list Z := repeat 0%Z n.
Definition run0 (g : config) (is_eos : Z -> bool) (toks : list Z) (n : nat) : res (list Z) :=
  tokens_of (toy g is_eos (zeros (c_A g * c_C g)) [] (zeros (c_C g)) toks n (init_cache g)).
Definition never (_ : Z) : bool := false.

(** ** C94: the tokens *)
(** Partial: the prompt has to leave room for one more chunk, and decoding has to end before the last place of the context. *)
Theorem C94_tokens_partial : forall {X : Type} (g : config) (embed : Z -> X) kproj vproj mix logits is_eos m pm po tm prompt seq_len,
  geometry g ->
  (forall l x q, length (kproj l x q) = c_H g * c_D g) -> (forall l x q, length (vproj l x q) = c_H g * c_D g) ->
  reached g embed kproj vproj mix logits is_eos m -> length pm = c_A g * c_C g -> length tm = c_C g ->
  fits g (length prompt) seq_len ->
  exists m', run g embed kproj vproj mix logits is_eos pm po tm prompt seq_len m =
    ROk (m', expected g embed kproj vproj mix logits is_eos prompt seq_len).
Proof.
  intros X g embed kproj vproj mix logits is_eos m pm po tm prompt seq_len Hg HK HV R L1 L2 F.
  destruct (run_ok g embed kproj vproj mix logits is_eos Hg HK HV prompt seq_len pm po tm m (reached_sized _ _ _ _ _ _ _ _ R) L1 L2 F) as (m' & E & _).
  exists m'. exact E.
Qed.
(** With a first token that is no end token, this is greedy generation of seq_len + 1 tokens up to an end token. *)
Theorem C94_greedy_partial : forall {X : Type} (g : config) (embed : Z -> X) kproj vproj mix logits is_eos m pm po tm prompt seq_len,
  geometry g ->
  (forall l x q, length (kproj l x q) = c_H g * c_D g) -> (forall l x q, length (vproj l x q) = c_H g * c_D g) ->
  reached g embed kproj vproj mix logits is_eos m -> length pm = c_A g * c_C g -> length tm = c_C g ->
  fits g (length prompt) seq_len -> seq_len <= c_C g - length prompt -> is_eos (best g embed kproj vproj mix logits prompt) = false ->
  exists m', run g embed kproj vproj mix logits is_eos pm po tm prompt seq_len m =
    ROk (m', continue_ g embed kproj vproj mix logits is_eos (seq_len + 1) prompt).
Proof.
  intros X g embed kproj vproj mix logits is_eos m pm po tm prompt seq_len Hg HK HV R L1 L2 F Hs He.
  destruct (C94_tokens_partial g embed kproj vproj mix logits is_eos m pm po tm prompt seq_len Hg HK HV R L1 L2 F) as (m' & E).
  exists m'. rewrite E. unfold expected. rewrite Nat.min_l by exact Hs. rewrite Nat.add_1_r. cbn [continue_]. rewrite He. reflexivity.
Qed.
(** What a call answers does not depend on earlier calls. *)
Theorem C94_no_history : forall {X : Type} (g : config) (embed : Z -> X) kproj vproj mix logits is_eos m pm po tm m2 pm2 po2 tm2 prompt seq_len,
  geometry g ->
  (forall l x q, length (kproj l x q) = c_H g * c_D g) -> (forall l x q, length (vproj l x q) = c_H g * c_D g) ->
  reached g embed kproj vproj mix logits is_eos m -> length pm = c_A g * c_C g -> length tm = c_C g ->
  reached g embed kproj vproj mix logits is_eos m2 -> length pm2 = c_A g * c_C g -> length tm2 = c_C g ->
  fits g (length prompt) seq_len ->
  tokens_of (run g embed kproj vproj mix logits is_eos pm po tm prompt seq_len m) =
  tokens_of (run g embed kproj vproj mix logits is_eos pm2 po2 tm2 prompt seq_len m2).
Proof.
  intros X g embed kproj vproj mix logits is_eos m pm po tm m2 pm2 po2 tm2 prompt seq_len Hg HK HV R L1 L2 R' L1' L2' F.
  destruct (C94_tokens_partial g embed kproj vproj mix logits is_eos m pm po tm prompt seq_len Hg HK HV R L1 L2 F) as (a & ->).
  destruct (C94_tokens_partial g embed kproj vproj mix logits is_eos m2 pm2 po2 tm2 prompt seq_len Hg HK HV R' L1' L2' F) as (b & ->). reflexivity.
Qed.
(** Outside: a prompt longer than context_len - ar_len gives other tokens, silently. *)
Theorem C94_long_prompt_refuted : exists prompt, length prompt <= c_C g0 - 1 /\ c_C g0 - c_A g0 < length prompt /\
  exists ts, run0 g0 never prompt 1 = ROk ts /\ ts <> toy_expected g0 never prompt 1.
Proof.
  exists [3; 1; 4; 1; 5; 9; 2; 6; 5; 3]%Z. split; [vm_compute; repeat constructor|]. split; [vm_compute; repeat constructor|].
  eexists. split; [vm_compute; reflexivity|]. vm_compute. discriminate.
Qed.
(** An end token right after the prompt does not end the answer. *)
Theorem C94_first_eos_refuted : exists is_eos prompt t r, run0 g0 is_eos prompt 2 = ROk (t :: r) /\ is_eos t = true /\ r <> [].
Proof.
  exists (fun t => (t =? toy_best g0 [1; 2; 3; 4]%Z)%Z), [1; 2; 3; 4]%Z. eexists. eexists. split; [vm_compute; reflexivity|]. split; [vm_compute; reflexivity|discriminate].
Qed.
(** An empty prompt answers from what the logits tensor held before. *)
Theorem C94_empty_prompt_refuted : exists po po2,
  tokens_of (toy g0 never (zeros 36) po (zeros 12) [] 0 (init_cache g0)) = ROk [1%Z] /\
  tokens_of (toy g0 never (zeros 36) po2 (zeros 12) [] 0 (init_cache g0)) = ROk [2%Z].
Proof. exists (repeat [0; 5; 0]%Z 3), (repeat [0; 5; 7]%Z 3). split; vm_compute; reflexivity. Qed.

Example C94_example : run0 g0 never [3; 1; 4; 1; 5]%Z 6 = ROk (toy_expected g0 never [3; 1; 4; 1; 5]%Z 6) /\ length (toy_expected g0 never [3; 1; 4; 1; 5]%Z 6) = 7.
Proof. split; vm_compute; reflexivity. Qed.
Definition after0 : manager := Eval vm_compute in
  match toy g0 never (zeros 36) [] (zeros 12) [3; 1; 4; 1; 5]%Z 6 (init_cache g0) with ROk (m, _) => m | _ => init_cache g0 end.
Lemma C94_hypotheses : geometry g0 /\ (forall l x q, length (toy_k (c_H g0 * c_D g0) l x q) = c_H g0 * c_D g0) /\
  (forall l x q, length (toy_v (c_H g0 * c_D g0) l x q) = c_H g0 * c_D g0) /\ fits g0 5 6 /\ is_true (negb (never 3)) /\
  exists m, reached g0 toy_embed (toy_k 4) (toy_v 4) toy_mix toy_logits never m /\ m_cur m = 1 /\ m <> init_cache g0.
Proof.
  split; [unfold geometry; cbn; lia|]. split; [reflexivity|]. split; [reflexivity|]. split; [unfold fits; cbn; lia|]. split; [reflexivity|].
  exists after0. split; [|split].
  - apply (re_run _ _ _ _ _ _ _ (init_cache g0) (zeros 36) [] (zeros 12) [3; 1; 4; 1; 5]%Z 6 after0 (toy_expected g0 never [3; 1; 4; 1; 5]%Z 6));
      [apply re_init|reflexivity|reflexivity|vm_compute; reflexivity].
  - vm_compute. reflexivity.
  - vm_compute. discriminate.
Qed.

(** ** C95: the buffers *)
(** Within [fits] no buffer is left (whatever the earlier calls were). *)
Theorem C95_in_bounds_partial : forall {X : Type} (g : config) (embed : Z -> X) kproj vproj mix logits is_eos m pm po tm prompt seq_len,
  geometry g ->
  (forall l x q, length (kproj l x q) = c_H g * c_D g) -> (forall l x q, length (vproj l x q) = c_H g * c_D g) ->
  reached g embed kproj vproj mix logits is_eos m -> length pm = c_A g * c_C g -> length tm = c_C g ->
  fits g (length prompt) seq_len ->
  exists r, run g embed kproj vproj mix logits is_eos pm po tm prompt seq_len m = ROk r /\ buffers g (fst r).
Proof.
  intros X g embed kproj vproj mix logits is_eos m pm po tm prompt seq_len Hg HK HV R L1 L2 F.
  destruct (run_ok g embed kproj vproj mix logits is_eos Hg HK HV prompt seq_len pm po tm m (reached_sized _ _ _ _ _ _ _ _ R) L1 L2 F) as (m' & E & S).
  eexists. split; [exact E|]. apply buffers_sized, S.
Qed.
(** Whenever ar_len < context_len and nothing ends the answer before the context is full, K of the last token is written
    behind its buffer - for every network, prompt and earlier calls. *)
Theorem C95_full_context_refuted : forall {X : Type} (g : config) (embed : Z -> X) kproj vproj mix logits is_eos m pm po tm prompt seq_len,
  geometry g -> 1 <= c_L g -> 1 <= c_H g * c_D g ->
  (forall l x q, length (kproj l x q) = c_H g * c_D g) -> (forall l x q, length (vproj l x q) = c_H g * c_D g) ->
  reached g embed kproj vproj mix logits is_eos m -> length pm = c_A g * c_C g -> length tm = c_C g ->
  c_A g < c_C g -> 1 <= length prompt <= c_C g - c_A g -> (forall t, is_eos t = false) -> c_C g <= length prompt + seq_len ->
  run g embed kproj vproj mix logits is_eos pm po tm prompt seq_len m = RUB.
Proof.
  intros X g embed kproj vproj mix logits is_eos m pm po tm prompt seq_len Hg HL HD HK HV R L1 L2 HAC Hp NE Hs.
  apply run_bad; auto. eapply reached_sized, R.
Qed.
Example C95_example : run0 g0 never [3; 1; 4; 1; 5]%Z 6 <> RUB /\ run0 g0 never [3; 1; 4; 1; 5]%Z 7 = RUB.
Proof. split; [vm_compute; discriminate|vm_compute; reflexivity]. Qed.
(** With ar_len = context_len the whole context can be used. *)
Example C95_whole : let g := mkCfg 2 2 2 6 6 in run0 g never [3; 1; 4]%Z 9 = ROk (toy_expected g never [3; 1; 4]%Z 9) /\ length (toy_expected g never [3; 1; 4]%Z 9) = 4.
Proof. split; vm_compute; reflexivity. Qed.
Lemma C95_hypotheses : geometry g0 /\ 1 <= c_L g0 /\ 1 <= c_H g0 * c_D g0 /\ c_A g0 < c_C g0 /\ 1 <= 5 <= c_C g0 - c_A g0 /\ c_C g0 <= 5 + 7 /\
  reached g0 toy_embed (toy_k 4) (toy_v 4) toy_mix toy_logits never (init_cache g0) /\ length (zeros 36) = c_A g0 * c_C g0.
Proof. split; [unfold geometry; cbn; lia|]. repeat (split; [cbn; lia|]). split; [constructor|reflexivity]. Qed.

(** ** C96: the masks *)
(** After initialisation for [a] tokens behind [n]: row s sees the n earlier tokens and the new tokens 0..s. *)
Theorem C96_init : forall g a n m, 1 <= a <= c_C g -> n <= c_C g - a -> length m = a * c_C g ->
  exists m', init_mask g a n (iota a) None m = ROk m' /\ length m' = length m /\
    forall s c, s < a -> c < c_C g -> (shows g m' s c <-> c < n \/ (c_C g - a <= c /\ c <= c_C g - a + s)).
Proof.
  intros g a n m Ha Hn L. destruct (init_mask_spec g a n None m Ha Hn L) as (m' & E & L' & N); [intros; cbn; lia|].
  exists m'. split; [exact E|]. split; [exact L'|]. intros s c Hs Hc. unfold shows. rewrite N by auto. cbn [thr Nat.leb andb].
  destruct (Nat.ltb_spec c n), (Nat.leb_spec (c_C g - a) c), (Nat.leb_spec c (c_C g - a + s)); cbn [andb orb]; unfold pos_val; (split; [lia|intros; try lia; try discriminate]).
Qed.
(** Updating adds the tokens n .. n + u - 1, and changes nothing else. *)
Theorem C96_update : forall g a n u m, length m = a * c_C g -> n + u <= c_C g ->
  exists m', update_mask g a n u None m = ROk m' /\ length m' = length m /\
    forall s c, s < a -> c < c_C g -> (shows g m' s c <-> n <= c < n + u \/ shows g m s c).
Proof.
  intros g a n u m L Hn. destruct (update_mask_spec g a n u None m L Hn) as (m' & E & L' & N); [intros; cbn; lia|].
  exists m'. split; [exact E|]. split; [exact L'|]. intros s c Hs Hc. unfold shows. rewrite N by auto. cbn [thr].
  destruct (Nat.ltb_spec c 0); [lia|]. destruct (Nat.leb_spec n c), (Nat.ltb_spec c (n + u)); cbn [andb]; unfold pos_val; (split; [intros; try lia; auto|]).
  all: intros [Q|Q]; try lia; try discriminate; exact Q.
Qed.
(** With a sliding window of w: token c of the cache is shown to row s, which stands at position n + u + s, iff it was or
    is now stored and is less than w positions back.  (Partial: the columns of the cache.) *)
Theorem C96_window_update_partial : forall g a n u w m, length m = a * c_C g -> n + u + a <= c_C g -> (0 <= w)%Z ->
  exists m', update_mask g a n u (Some w) m = ROk m' /\ length m' = length m /\
    forall s c, s < a -> c < n + u ->
      (shows g m' s c <-> (Z.of_nat (n + u + s) - Z.of_nat c < w)%Z /\ (n <= c \/ shows g m s c)).
Proof.
  intros g a n u w m L Hn Hw. destruct (update_mask_spec g a n u (Some w) m L) as (m' & E & L' & N); [lia|intros i Hi; cbn [thr]; lia|].
  exists m'. split; [exact E|]. split; [exact L'|]. intros s c Hs Hc. unfold shows. rewrite N by (auto; lia). cbn [thr].
  destruct (Nat.ltb_spec c (Z.to_nat (Z.of_nat (n + u + s + 1) - w))).
  - split; [congruence|]. intros (Q & _). lia.
  - destruct (Nat.leb_spec n c), (Nat.ltb_spec c (n + u)); cbn [andb]; try (exfalso; lia).
    + unfold pos_val. split; [intros _|discriminate]. split; [lia|left; lia].
    + split; [intro Q; split; [lia|right; exact Q]|]. intros (_ & [Q|Q]); [lia|exact Q].
Qed.
(** initAttentionMask counts the n_past tokens twice: with a window, tokens that should be seen are hidden.  Here the row
    at position 3 does not see token 2, one position back, with a window of 4. *)
Theorem C96_window_init_refuted : exists g m', init_mask g 2 3 (iota 2) (Some 4%Z) (zeros (2 * c_C g)) = ROk m' /\
  (Z.of_nat (3 + 0) - Z.of_nat 2 < 4)%Z /\ ~ shows g m' 0 2.
Proof.
  exists (mkCfg 1 1 1 8 2). eexists. split; [vm_compute; reflexivity|]. split; [lia|]. unfold shows. vm_compute. intro H. apply H. reflexivity.
Qed.
(** The new tokens are not limited by the window: row 2 sees new token 0, two positions back, with a window of 2. *)
Theorem C96_window_new_refuted : exists g m1 m', init_mask g 3 0 (iota 3) (Some 2%Z) (zeros (3 * c_C g)) = ROk m1 /\
  update_mask g 3 0 3 (Some 2%Z) m1 = ROk m' /\ shows g m1 2 (c_C g - 3) /\ shows g m' 2 (c_C g - 3).
Proof.
  exists (mkCfg 1 1 1 10 3). eexists. eexists. split; [vm_compute; reflexivity|]. split; [vm_compute; reflexivity|]. split; unfold shows; vm_compute; discriminate.
Qed.
Example C96_example : exists m', init_mask (mkCfg 1 1 1 6 2) 2 1 (iota 2) None (zeros 12) = ROk m' /\
  map (fun x => (x =? 0)%Z) m' = map negb [true; false; false; false; true; false; true; false; false; false; true; true].
Proof. eexists. split; vm_compute; reflexivity. Qed.
Lemma C96_hypotheses : 1 <= 3 <= c_C g0 /\ 5 <= c_C g0 - 3 /\ length (zeros 36) = 3 * c_C g0 /\ 5 + 2 + 3 <= c_C g0 /\ (0 <= 4)%Z.
Proof. cbn. lia. Qed.

(** ** C97: rearranging the cache *)
Theorem C97_rearrange : forall g a m, geometry g -> buffers g m -> a = c_A g \/ a = 1 ->
  exists m', rearrange g a m = ROk m' /\ buffers g m' /\ m_cur m' = a /\
    forall l t, l < c_L g -> t < width g (m_cur m) -> t < c_C g - a ->
      (forall e, e < c_H g * c_D g -> key_entry g a (nth l (m_kin m') []) e t = key_entry g (m_cur m) (nth l (m_kin m) []) e t) /\
      (forall h d, h < c_H g -> d < c_D g -> value_entry g a (nth l (m_vin m') []) h t d = value_entry g (m_cur m) (nth l (m_vin m) []) h t d).
Proof. exact rearrange_entries. Qed.
(** From prompt to decoding and back: the tokens that fit while prompts are processed are kept. *)
Theorem C97_round_trip : forall g m, geometry g -> buffers g m ->
  exists m1 m2, rearrange g 1 m = ROk m1 /\ rearrange g (m_cur m) m1 = ROk m2 /\ m_cur m2 = m_cur m /\
    forall l t, l < c_L g -> t < c_C g - m_cur m ->
      (forall e, e < c_H g * c_D g -> key_entry g (m_cur m) (nth l (m_kin m2) []) e t = key_entry g (m_cur m) (nth l (m_kin m) []) e t) /\
      (forall h d, h < c_H g -> d < c_D g -> value_entry g (m_cur m) (nth l (m_vin m2) []) h t d = value_entry g (m_cur m) (nth l (m_vin m) []) h t d).
Proof.
  intros g m Hg B. assert (Hc : m_cur m = c_A g \/ m_cur m = 1) by apply B.
  destruct (rearrange_entries g 1 m Hg B (or_intror eq_refl)) as (m1 & E1 & B1 & C1 & H1).
  destruct (rearrange_entries g (m_cur m) m1 Hg B1 Hc) as (m2 & E2 & B2 & C2 & H2).
  exists m1, m2. split; [exact E1|]. split; [exact E2|]. split; [exact C2|]. intros l t Hl Ht.
  assert (W : t < width g (m_cur m)) by (unfold width; destruct (Nat.eqb_spec (m_cur m) (c_C g)); lia).
  assert (M1 : 1 <= m_cur m) by (destruct Hg as (? & ? & ?); destruct Hc as [-> | ->]; lia).
  destruct (H1 l t Hl W ltac:(lia)) as (K1 & V1).
  assert (W1 : t < width g (m_cur m1)) by (rewrite C1; unfold width; destruct (Nat.eqb_spec 1 (c_C g)); destruct Hg; lia).
  destruct (H2 l t Hl W1 Ht) as (K2 & V2). rewrite C1 in K2, V2. split.
  - intros e He. rewrite K2, K1 by auto. reflexivity.
  - intros h d Hh Hd. rewrite V2, V1 by auto. reflexivity.
Qed.
Definition filled (g : config) (a : nat) : manager :=
  let i := map Z.of_nat (seq 1 (c_H g * c_D g * max_cache_len g)) in let o := map Z.of_nat (seq 100 (c_H g * c_D g * max_ar_len g)) in
  mkMan a (repeat i (c_L g)) (repeat i (c_L g)) (repeat o (c_L g)) (repeat o (c_L g)).
Example C97_example : exists m', rearrange (mkCfg 1 1 2 5 3) 1 (filled (mkCfg 1 1 2 5 3) 3) = ROk m' /\
  m_kin m' = [[1; 2; 3; 4; 3; 4; 7; 8]%Z] /\ key_entry (mkCfg 1 1 2 5 3) 1 (nth 0 (m_kin m') []) 1 1 = 4%Z.
Proof. eexists. split; [vm_compute; reflexivity|]. split; vm_compute; reflexivity. Qed.
Lemma C97_hypotheses : geometry g0 /\ buffers g0 (filled g0 3) /\ buffers g0 (filled g0 1).
Proof. split; [unfold geometry; cbn; lia|]. split; (split; [|split; [|split; [|split]]]); try (split; [reflexivity|repeat constructor]); cbn; auto. Qed.

(** ** C98: storing tokens *)
(** The j-th stored token goes to place n_past + j of every layer's K and V, and nothing else changes: the selected tokens
    in their order, or all. *)
Theorem C98_store : forall g a n u sel m, geometry g -> buffers g m -> m_cur m = a -> length sel <= a -> u <= a -> 1 <= u <= length (sources sel u) ->
  n + u <= width g a ->
  exists m', update_cache g a n u sel m = ROk m' /\ buffers g m' /\ m_cur m' = a /\ m_kout m' = m_kout m /\ m_vout m' = m_vout m /\
    forall l t, l < c_L g -> t < width g a ->
      (forall e, e < c_H g * c_D g -> key_entry g a (nth l (m_kin m') []) e t =
         if (n <=? t) && (t <? n + u) then key_result a (nth l (m_kout m) []) e (nth (t - n) (sources sel u) 0) else key_entry g a (nth l (m_kin m) []) e t) /\
      (forall h d, h < c_H g -> d < c_D g -> value_entry g a (nth l (m_vin m') []) h t d =
         if (n <=? t) && (t <? n + u) then value_result g a (nth l (m_vout m) []) h (nth (t - n) (sources sel u) 0) d else value_entry g a (nth l (m_vin m) []) h t d).
Proof. exact update_entries. Qed.
(** What is asked for in another arrangement is refused. *)
Theorem C98_wrong_arrangement : forall g a n u sel m, m_cur m <> a -> update_cache g a n u sel m = RAbort.
Proof. intros g a n u sel m H. unfold update_cache. destruct (Nat.eqb_spec (m_cur m) a); [contradiction|reflexivity]. Qed.
(** Fewer selected tokens than n_update: K of token 0 is stored for the missing ones, V of nothing. *)
Theorem C98_too_few_refuted : exists g m m', buffers g m /\ update_cache g 3 0 2 [false; true; false] m = ROk m' /\
  key_entry g 3 (nth 0 (m_kin m') []) 0 1 = key_result 3 (nth 0 (m_kout m) []) 0 0 /\
  key_entry g 3 (nth 0 (m_kin m') []) 0 1 <> key_entry g 3 (nth 0 (m_kin m) []) 0 1 /\
  value_entry g 3 (nth 0 (m_vin m') []) 0 1 0 = value_entry g 3 (nth 0 (m_vin m) []) 0 1 0.
Proof.
  exists (mkCfg 1 1 1 6 3), (filled (mkCfg 1 1 1 6 3) 3). eexists.
  split; [split; [|split; [|split; [|split]]]; try (split; [reflexivity|repeat constructor]); left; reflexivity|].
  split; [vm_compute; reflexivity|]. split; [vm_compute; reflexivity|]. split; [vm_compute; discriminate|vm_compute; reflexivity].
Qed.
(** n_update = 0 with a selection that starts with token 0: K is left alone, V gets every selected token. *)
Theorem C98_none_refuted : exists g m m', buffers g m /\ update_cache g 3 0 0 [true; false; true] m = ROk m' /\
  m_kin m' = m_kin m /\ value_entry g 3 (nth 0 (m_vin m') []) 0 1 0 = value_result g 3 (nth 0 (m_vout m) []) 0 2 0 /\ m_vin m' <> m_vin m.
Proof.
  exists (mkCfg 1 1 1 6 3), (filled (mkCfg 1 1 1 6 3) 3). eexists.
  split; [split; [|split; [|split; [|split]]]; try (split; [reflexivity|repeat constructor]); left; reflexivity|].
  split; [vm_compute; reflexivity|]. split; [vm_compute; reflexivity|]. split; [vm_compute; reflexivity|vm_compute; discriminate].
Qed.
Example C98_example : exists m', update_cache (mkCfg 1 1 2 7 3) 3 1 2 [true; false; true] (filled (mkCfg 1 1 2 7 3) 3) = ROk m' /\
  m_kin m' = [[1; 100; 102; 4; 5; 103; 105; 8; 9; 10; 11; 12]%Z] /\ m_vin m' = [[1; 2; 100; 101; 104; 105; 7; 8; 9; 10; 11; 12]%Z].
Proof. eexists. split; [vm_compute; reflexivity|]. split; vm_compute; reflexivity. Qed.
Lemma C98_hypotheses : geometry g0 /\ buffers g0 (filled g0 3) /\ length [true; false; true] <= 3 /\ 1 <= 2 <= length (sources [true; false; true] 2) /\
  4 + 2 <= width g0 3 /\ m_cur (filled g0 3) <> 1.
Proof.
  split; [unfold geometry; cbn; lia|]. split; [|cbn; lia].
  split; [|split; [|split; [|split]]]; try (split; [reflexivity|repeat constructor]); cbn; auto.
Qed.

Print Assumptions C94_tokens_partial.
Print Assumptions C94_greedy_partial.
Print Assumptions C94_no_history.
Print Assumptions C94_long_prompt_refuted.
Print Assumptions C94_first_eos_refuted.
Print Assumptions C94_empty_prompt_refuted.
Print Assumptions C95_in_bounds_partial.
Print Assumptions C95_full_context_refuted.
Print Assumptions C96_init.
Print Assumptions C96_update.
Print Assumptions C96_window_update_partial.
Print Assumptions C96_window_init_refuted.
Print Assumptions C96_window_new_refuted.
Print Assumptions C97_rearrange.
Print Assumptions C97_round_trip.
Print Assumptions C98_store.
Print Assumptions C98_wrong_arrangement.
Print Assumptions C98_too_few_refuted.
Print Assumptions C98_none_refuted.
