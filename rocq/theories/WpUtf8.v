(** UTF-8 with validation: utfcpp accepts exactly valid UTF-8. *)
From Verif Require Import Base DTypeModel ParamModel TensorModel TokModel TokSpec Utf8Proofs WpModel WpSpec.
Local Open Scope Z_scope.

Definition bytes (s : list Z) : Prop := Forall is_byte s.

Lemma rbind_ok {A B} (x : res A) (f : A -> res B) y : rbind x f = ROk y -> exists a, x = ROk a /\ f a = ROk y.
Proof. destruct x; cbn; try discriminate. intro H. eauto. Qed.

(** What the bit operations compute on bytes. *)
Definition lead_check (b : Z) : bool :=
  (seq_len b =? (if b <? 128 then 1 else if b <? 192 then 0 else if b <? 224 then 2 else if b <? 240 then 3 else if b <? 248 then 4 else 0)) &&
  Bool.eqb (is_trail b) ((128 <=? b) && (b <? 192)) &&
  (if (192 <=? b) && (b <? 224) then band (Z.shiftl b 6) 2047 =? (b - 192) * 64 else true) &&
  (if (224 <=? b) && (b <? 240) then band (Z.shiftl b 12) 65535 =? (b - 224) * 4096 else true) &&
  (if (240 <=? b) && (b <? 248) then band (Z.shiftl b 18) 2097151 =? (b - 240) * 262144 else true) &&
  (if (128 <=? b) && (b <? 192) then (band b 63 =? b - 128) && (band (Z.shiftl b 6) 4095 =? (b - 128) * 64) && (band (Z.shiftl b 12) 262143 =? (b - 128) * 4096) else true).
Lemma lead_ok b : is_byte b -> lead_check b = true.
Proof. apply byte_cases. vm_compute. reflexivity. Qed.
Ltac lead b H :=
  let K := fresh "K" in pose proof (lead_ok b H) as K; unfold lead_check in K;
  apply andb_prop in K as [K ?]; apply andb_prop in K as [K ?]; apply andb_prop in K as [K ?]; apply andb_prop in K as [K ?]; apply andb_prop in K as [K ?].

Lemma seq_len_of b : is_byte b -> seq_len b = if b <? 128 then 1 else if b <? 192 then 0 else if b <? 224 then 2 else if b <? 240 then 3 else if b <? 248 then 4 else 0.
Proof. intro H. lead b H. apply Z.eqb_eq. assumption. Qed.
Lemma trail_of b : is_byte b -> is_trail b = (128 <=? b) && (b <? 192).
Proof. intro H. lead b H. apply eqb_prop. assumption. Qed.
Lemma lead2 b : is_byte b -> 192 <= b < 224 -> band (Z.shiftl b 6) 2047 = (b - 192) * 64.
Proof. intros H R. lead b H. replace ((192 <=? b) && (b <? 224)) with true in * by lia. apply Z.eqb_eq. assumption. Qed.
Lemma lead3 b : is_byte b -> 224 <= b < 240 -> band (Z.shiftl b 12) 65535 = (b - 224) * 4096.
Proof. intros H R. lead b H. replace ((224 <=? b) && (b <? 240)) with true in * by lia. apply Z.eqb_eq. assumption. Qed.
Lemma lead4 b : is_byte b -> 240 <= b < 248 -> band (Z.shiftl b 18) 2097151 = (b - 240) * 262144.
Proof. intros H R. lead b H. replace ((240 <=? b) && (b <? 248)) with true in * by lia. apply Z.eqb_eq. assumption. Qed.
Lemma trail6 b : is_byte b -> 128 <= b < 192 -> band b 63 = b - 128 /\ band (Z.shiftl b 6) 4095 = (b - 128) * 64 /\ band (Z.shiftl b 12) 262143 = (b - 128) * 4096.
Proof.
  intros H R. lead b H. replace ((128 <=? b) && (b <? 192)) with true in * by lia.
  match goal with H : _ && _ && _ = true |- _ => apply andb_prop in H as [H ?]; apply andb_prop in H as [H ?] end.
  repeat split; apply Z.eqb_eq; assumption.
Qed.

Lemma scalar_cp c : scalar c -> code_point c.
Proof. unfold scalar, code_point. lia. Qed.
Lemma scalar_valid c : 0 <= c -> (cp_valid c = true <-> scalar c).
Proof. unfold cp_valid, scalar. lia. Qed.
Lemma utf8_of_bytes c : code_point c -> bytes (utf8_of c).
Proof.
  unfold code_point, utf8_of, bytes, is_byte. intro H.
  pose proof (Z.mod_pos_bound c 64 ltac:(lia)). pose proof (Z.mod_pos_bound (c / 64) 64 ltac:(lia)). pose proof (Z.mod_pos_bound (c / 4096) 64 ltac:(lia)).
  destruct (c <? 128) eqn:E1; [repeat constructor; lia|].
  destruct (c <? 2048) eqn:E2; [repeat constructor; try lia; Z.to_euclidean_division_equations; lia|].
  destruct (c <? 65536) eqn:E3; [repeat constructor; try lia; Z.to_euclidean_division_equations; lia|].
  repeat constructor; try lia; Z.to_euclidean_division_equations; lia.
Qed.

Lemma next_ok c r : scalar c -> utf8_next (utf8_of c ++ r) = ROk (c, r).
Proof.
  intro S. pose proof (scalar_cp c S) as C. pose proof (utf8_of_bytes c C) as B. pose proof (proj2 (scalar_valid c ltac:(unfold code_point in C; lia)) S) as V.
  unfold code_point in C. unfold utf8_of in *.
  destruct (c <? 128) eqn:E1.
  { cbn [app utf8_next]. inversion B as [|? ? B0 _]; subst. rewrite (seq_len_of c B0), E1. cbn [get_sequence rbind fst]. rewrite V. unfold overlong. rewrite E1. reflexivity. }
  destruct (c <? 2048) eqn:E2.
  { cbn [app utf8_next]. pose proof (Forall_inv B) as B0; pose proof (Forall_inv_tail B) as B'. pose proof (Forall_inv B') as B1.
    assert (R0 : 192 <= 192 + c / 64 < 224) by (Z.to_euclidean_division_equations; lia).
    assert (R1 : 128 <= 128 + c mod 64 < 192) by (Z.to_euclidean_division_equations; lia).
    rewrite (seq_len_of _ B0).
    replace (192 + c / 64 <? 128) with false by lia. replace (192 + c / 64 <? 192) with false by lia. replace (192 + c / 64 <? 224) with true by lia.
    cbn [get_sequence]. rewrite (trail_of _ B1). replace ((128 <=? 128 + c mod 64) && (128 + c mod 64 <? 192)) with true by lia.
    rewrite (lead2 _ B0 R0). rewrite (proj1 (trail6 _ B1 R1)). cbn [rbind fst].
    replace ((192 + c / 64 - 192) * 64 + (128 + c mod 64 - 128)) with c by (Z.to_euclidean_division_equations; lia).
    rewrite V. unfold overlong. rewrite E1, E2. reflexivity. }
  destruct (c <? 65536) eqn:E3.
  { cbn [app utf8_next]. pose proof (Forall_inv B) as B0; pose proof (Forall_inv_tail B) as B'. pose proof (Forall_inv B') as B1; pose proof (Forall_inv_tail B') as B''. pose proof (Forall_inv B'') as B2.
    assert (R0 : 224 <= 224 + c / 4096 < 240) by (Z.to_euclidean_division_equations; lia).
    assert (R1 : 128 <= 128 + (c / 64) mod 64 < 192) by (Z.to_euclidean_division_equations; lia).
    assert (R2 : 128 <= 128 + c mod 64 < 192) by (Z.to_euclidean_division_equations; lia).
    rewrite (seq_len_of _ B0).
    replace (224 + c / 4096 <? 128) with false by lia. replace (224 + c / 4096 <? 192) with false by lia. replace (224 + c / 4096 <? 224) with false by lia. replace (224 + c / 4096 <? 240) with true by lia.
    cbn [get_sequence]. rewrite (trail_of _ B1), (trail_of _ B2).
    replace (((128 <=? 128 + (c / 64) mod 64) && (128 + (c / 64) mod 64 <? 192)) && ((128 <=? 128 + c mod 64) && (128 + c mod 64 <? 192))) with true by lia.
    rewrite (lead3 _ B0 R0). rewrite (proj1 (proj2 (trail6 _ B1 R1))), (proj1 (trail6 _ B2 R2)). cbn [rbind fst].
    replace ((224 + c / 4096 - 224) * 4096 + (128 + (c / 64) mod 64 - 128) * 64 + (128 + c mod 64 - 128)) with c by (clear; Z.to_euclidean_division_equations; lia).
    rewrite V. unfold overlong. rewrite E1, E2, E3. reflexivity. }
  cbn [app utf8_next]. pose proof (Forall_inv B) as B0; pose proof (Forall_inv_tail B) as B'. pose proof (Forall_inv B') as B1; pose proof (Forall_inv_tail B') as B''. pose proof (Forall_inv B'') as B2; pose proof (Forall_inv_tail B'') as B3'. pose proof (Forall_inv B3') as B3.
  assert (R0 : 240 <= 240 + c / 262144 < 248) by (clear - C E3; Z.to_euclidean_division_equations; lia).
  assert (R1 : 128 <= 128 + (c / 4096) mod 64 < 192) by (clear; Z.to_euclidean_division_equations; lia).
  assert (R2 : 128 <= 128 + (c / 64) mod 64 < 192) by (clear; Z.to_euclidean_division_equations; lia).
  assert (R3 : 128 <= 128 + c mod 64 < 192) by (clear; Z.to_euclidean_division_equations; lia).
  rewrite (seq_len_of _ B0).
  replace (240 + c / 262144 <? 128) with false by lia. replace (240 + c / 262144 <? 192) with false by lia. replace (240 + c / 262144 <? 224) with false by lia. replace (240 + c / 262144 <? 240) with false by lia. replace (240 + c / 262144 <? 248) with true by lia.
  cbn [get_sequence]. rewrite (trail_of _ B1), (trail_of _ B2), (trail_of _ B3).
  match goal with |- context [if ?x then _ else _] => replace x with true by lia end.
  rewrite (lead4 _ B0 R0). rewrite (proj2 (proj2 (trail6 _ B1 R1))), (proj1 (proj2 (trail6 _ B2 R2))), (proj1 (trail6 _ B3 R3)). cbn [rbind fst].
  match goal with |- context [cp_valid ?x] => replace x with c by (clear; Z.to_euclidean_division_equations; lia) end.
  rewrite V. unfold overlong. rewrite E1, E2, E3. reflexivity.
Qed.

Lemma next_inv s c r : bytes s -> utf8_next s = ROk (c, r) -> scalar c /\ s = utf8_of c ++ r.
Proof.
  intros B H. destruct s as [|b s]; [discriminate|]. cbn [utf8_next] in H. apply rbind_ok in H as ([c' r'] & G & H). cbn [fst] in H.
  inversion B as [|? ? B0 Bs]; subst. rewrite (seq_len_of b B0) in G, H.
  destruct (cp_valid c' && negb (overlong c' _)) eqn:V in H; [|discriminate]. assert (c' = c /\ r' = r) as [-> ->] by (split; congruence). clear H.
  apply andb_prop in V as [V O]. apply negb_true_iff in O.
  unfold is_byte in B0. destruct (b <? 128) eqn:L1.
  { cbn [get_sequence] in G. assert (b = c /\ s = r) as [-> ->] by (split; congruence). split; [apply scalar_valid; [lia|assumption]|]. unfold utf8_of. rewrite L1. reflexivity. }
  destruct (b <? 192) eqn:L2; [discriminate G|].
  destruct (b <? 224) eqn:L3.
  { cbn [get_sequence] in G. destruct s as [|b1 s]; [discriminate|]. inversion Bs as [|? ? B1 Bs']; subst. rewrite (trail_of b1 B1) in G.
    destruct ((128 <=? b1) && (b1 <? 192)) eqn:T1; [|discriminate]. rewrite lead2 in G by (unfold is_byte; lia). rewrite (proj1 (trail6 b1 B1 ltac:(lia))) in G.
    assert ((b - 192) * 64 + (b1 - 128) = c /\ s = r) as [<- ->] by (split; congruence). unfold overlong in O. destruct (_ <? 128) eqn:E1 in O; [discriminate|].
    split; [apply scalar_valid; [lia|assumption]|]. unfold utf8_of.
    replace ((b - 192) * 64 + (b1 - 128) <? 128) with false by lia. replace ((b - 192) * 64 + (b1 - 128) <? 2048) with true by lia.
    cbn [app]. do 2 f_equal; [|f_equal]; clear - L1 L2 L3 T1; Z.to_euclidean_division_equations; lia. }
  destruct (b <? 240) eqn:L4.
  { cbn [get_sequence] in G. destruct s as [|b1 [|b2 s]]; try discriminate. inversion Bs as [|? ? B1 Bs']; subst. inversion Bs' as [|? ? B2 _]; subst. rewrite (trail_of b1 B1), (trail_of b2 B2) in G.
    destruct (_ && _) eqn:T1 in G; [|discriminate]. rewrite lead3 in G by (unfold is_byte; lia). rewrite (proj1 (proj2 (trail6 b1 B1 ltac:(lia)))), (proj1 (trail6 b2 B2 ltac:(lia))) in G.
    assert ((b - 224) * 4096 + (b1 - 128) * 64 + (b2 - 128) = c /\ s = r) as [<- ->] by (split; congruence). unfold overlong in O.
    destruct (_ <? 128) eqn:E1 in O; [discriminate|]. destruct (_ <? 2048) eqn:E2 in O; [discriminate|].
    split; [apply scalar_valid; [lia|assumption]|]. unfold utf8_of. rewrite E1, E2.
    match goal with |- context [?x <? 65536] => replace (x <? 65536) with true by lia end.
    cbn [app]. f_equal; [|f_equal; [|f_equal]]; clear - L1 L2 L3 L4 T1; Z.to_euclidean_division_equations; lia. }
  destruct (b <? 248) eqn:L5; [|discriminate].
  cbn [get_sequence] in G. destruct s as [|b1 [|b2 [|b3 s]]]; try discriminate. inversion Bs as [|? ? B1 Bs']; subst. inversion Bs' as [|? ? B2 Bs'']; subst. inversion Bs'' as [|? ? B3 _]; subst. rewrite (trail_of b1 B1), (trail_of b2 B2), (trail_of b3 B3) in G.
  destruct (_ && _) eqn:T1 in G; [|discriminate]. rewrite lead4 in G by (unfold is_byte; lia). rewrite (proj2 (proj2 (trail6 b1 B1 ltac:(lia)))), (proj1 (proj2 (trail6 b2 B2 ltac:(lia)))), (proj1 (trail6 b3 B3 ltac:(lia))) in G.
  assert ((b - 240) * 262144 + (b1 - 128) * 4096 + (b2 - 128) * 64 + (b3 - 128) = c /\ s = r) as [<- ->] by (split; congruence). unfold overlong in O.
  destruct (_ <? 128) eqn:E1 in O; [discriminate|]. destruct (_ <? 2048) eqn:E2 in O; [discriminate|]. destruct (_ <? 65536) eqn:E3 in O; [discriminate|].
  split; [apply scalar_valid; [lia|assumption]|]. unfold utf8_of. rewrite E1, E2, E3.
  cbn [app]. f_equal; [|f_equal; [|f_equal; [|f_equal]]]; clear - L1 L2 L3 L4 L5 T1; Z.to_euclidean_division_equations; lia.
Qed.

Lemma utf8_of_ne c : utf8_of c <> [].
Proof. unfold utf8_of. destruct (_ <? _); [discriminate|]. destruct (_ <? _); [discriminate|]. destruct (_ <? _); discriminate. Qed.
Lemma text_cons c w : utf8_text (c :: w) = utf8_of c ++ utf8_text w.
Proof. reflexivity. Qed.
Lemma text_app a b : utf8_text (a ++ b) = utf8_text a ++ utf8_text b.
Proof. unfold utf8_text. rewrite map_app, concat_app. reflexivity. Qed.
Lemma text_bytes w : Forall scalar w -> bytes (utf8_text w).
Proof. induction 1 as [|c w S _ IH]; [constructor|]. rewrite text_cons. apply Forall_app. split; [apply utf8_of_bytes, scalar_cp, S|exact IH]. Qed.

Lemma decode_text w : Forall scalar w -> utf8_decode (utf8_text w) = ROk w.
Proof.
  intro H. unfold utf8_decode. assert (G : forall f, (length (utf8_text w) <= f)%nat -> decode_loop f (utf8_text w) = ROk w); [|apply G; lia].
  induction H as [|c w S _ IH]; intros f F; [destruct f; reflexivity|].
  rewrite text_cons in *. rewrite app_length in F. pose proof (utf8_of_ne c) as NE. pose proof (next_ok c (utf8_text w) S) as N.
  destruct (utf8_of c) as [|b u]; [congruence|]. cbn [app length] in *. destruct f as [|f]; [lia|]. cbn [decode_loop]. rewrite N. cbn [rbind fst snd].
  rewrite IH by lia. reflexivity.
Qed.
Lemma decode_inv s w : bytes s -> utf8_decode s = ROk w -> Forall scalar w /\ s = utf8_text w.
Proof.
  unfold utf8_decode. generalize (length s). intros f B. revert s w B. induction f as [|f IH]; intros s w B H.
  - destruct s; [|discriminate]. injection H as <-. split; [constructor|reflexivity].
  - destruct s as [|b s]; [injection H as <-; split; [constructor|reflexivity]|]. cbn [decode_loop] in H.
    apply rbind_ok in H as ([c r] & N & H). apply rbind_ok in H as (l & L & H). cbn [fst snd] in *. injection H as <-.
    destruct (next_inv _ _ _ B N) as [S E]. rewrite E in *. apply Forall_app in B as [_ B]. destruct (IH _ _ B L) as [A ->]. split; [constructor; assumption|reflexivity].
Qed.
Lemma append_ok c : scalar c -> utf8_append c = ROk (utf8_of c).
Proof.
  intro S. pose proof (scalar_cp c S) as C. unfold utf8_append. rewrite (proj2 (scalar_valid c ltac:(unfold code_point in C; lia)) S). f_equal.
  rewrite <- (encode_char_ok c C). unfold encode_char, code_point in *. cbv zeta. rewrite (Z.mod_small c (2 ^ 32)) by lia.
  destruct (c <=? 127) eqn:E1; destruct (c <? 128) eqn:F1; try lia; [reflexivity|].
  assert (K : forall a b, bor a b = bor b a) by (intros; apply Z.lor_comm).
  destruct (c <=? 2047) eqn:E2; destruct (c <? 2048) eqn:F2; try lia.
  { rewrite band31, shr_div by lia. rewrite Z.mod_small by (Z.to_euclidean_division_equations; lia). rewrite (K _ 192), (K _ 128). reflexivity. }
  destruct (c <=? 65535) eqn:E3; destruct (c <? 65536) eqn:F3; try lia.
  { rewrite band15, (shr_div c 12) by lia. rewrite (Z.mod_small (c / 2 ^ 12) 16) by (Z.to_euclidean_division_equations; lia). rewrite (K _ 224), (K _ 128), (K _ 128). reflexivity. }
  destruct (c <=? 1114111) eqn:E4; [|lia].
  rewrite band7, (shr_div c 18) by lia. rewrite (Z.mod_small (c / 2 ^ 18) 8) by (Z.to_euclidean_division_equations; lia). rewrite (K _ 240), (K _ 128), (K _ 128), (K _ 128). reflexivity.
Qed.
Lemma encode_text w : Forall scalar w -> utf8_encode w = ROk (utf8_text w).
Proof. induction 1 as [|c w S _ IH]; [reflexivity|]. cbn [utf8_encode]. rewrite append_ok by exact S. cbn [rbind]. rewrite IH. reflexivity. Qed.
(** Decoding is never stuck: text or exception. *)
Lemma decode_total s : bytes s -> (exists w, utf8_decode s = ROk w) \/ utf8_decode s = RAbort.
Proof.
  intro B. unfold utf8_decode. assert (G : forall f s, bytes s -> (length s <= f)%nat -> (exists w, decode_loop f s = ROk w) \/ decode_loop f s = RAbort); [|apply G; [exact B|lia]].
  clear. induction f as [|f IH]; intros s B F.
  - destruct s; [left; exists []; reflexivity|cbn in F; lia].
  - destruct s as [|b s]; [left; exists []; reflexivity|]. cbn [decode_loop].
    assert (N : (exists c r, utf8_next (b :: s) = ROk (c, r)) \/ utf8_next (b :: s) = RAbort).
    { cbn [utf8_next]. unfold get_sequence. inversion B as [|? ? B0 _]; subst. rewrite (seq_len_of b B0).
      assert (F1 : forall (x : Z) (r : list Z) (k : bool), (exists c r0, (if k then ROk (x, r) else RAbort) = ROk (c, r0)) \/ (if k then ROk (x, r) else RAbort : res (Z * list Z)) = RAbort) by (intros x r [|]; eauto).
      repeat match goal with |- context [if ?k then (if _ then _ else _) else _] => destruct k eqn:? end; repeat match goal with |- context [if ?k <? ?z then _ else _] => destruct (k <? z) eqn:? end; cbn [rbind]; try (right; reflexivity).
      all: repeat match goal with |- context [match ?s with [] => _ | _ :: _ => _ end] => destruct s; try (right; reflexivity) end.
      all: cbn [rbind fst]; try match goal with |- context [is_trail _] => match goal with |- context [do _ <- (if ?k then _ else _); _] => destruct k; [|right; reflexivity] end end; cbn [rbind fst]; apply F1. }
    destruct N as [(c & r & N)|N]; rewrite N; [|right; reflexivity]. cbn [rbind fst snd]. destruct (next_inv _ _ _ B N) as [S E].
    assert (L : (length r <= f)%nat). { apply (f_equal (@length Z)) in E. rewrite app_length in E. pose proof (utf8_of_ne c). destruct (utf8_of c); [congruence|]. cbn [length] in *. lia. }
    rewrite E in B. apply Forall_app in B as [_ B]. destruct (IH r B L) as [(w & ->)| ->]; [left; eexists; reflexivity|right; reflexivity].
Qed.
(** A valid prefix of valid text: the rest is valid, and the code points are cut there. *)
Lemma of_app_inj c d r r' : scalar c -> scalar d -> utf8_of c ++ r = utf8_of d ++ r' -> c = d /\ r = r'.
Proof. intros S T E. pose proof (next_ok c r S) as N. rewrite E, (next_ok d r' T) in N. split; congruence. Qed.
Lemma prefix_text a : Forall scalar a -> forall w r, Forall scalar w -> utf8_text w = utf8_text a ++ r -> exists b, w = a ++ b /\ r = utf8_text b.
Proof.
  induction 1 as [|c a S _ IH]; intros w r W E; [exists w; split; [reflexivity|symmetry; exact E]|].
  destruct W as [|d w D W].
  - exfalso. rewrite text_cons in E. pose proof (utf8_of_ne c). destruct (utf8_of c); [congruence|discriminate].
  - rewrite !text_cons, <- app_assoc in E. destruct (of_app_inj _ _ _ _ D S E) as [-> E']. destruct (IH w r W E') as (b & -> & ->). exists b. split; reflexivity.
Qed.
Lemma text_inj a b : Forall scalar a -> Forall scalar b -> utf8_text a = utf8_text b -> a = b.
Proof.
  intros A B E. destruct (prefix_text b B a [] A) as (r & -> & N); [rewrite app_nil_r; exact E|].
  destruct r as [|c r]; [rewrite app_nil_r; reflexivity|]. rewrite text_cons in N. pose proof (utf8_of_ne c). destruct (utf8_of c); [congruence|discriminate].
Qed.
(** A byte that starts no character. *)
Definition trail (b : Z) : Prop := 128 <= b < 192.
Lemma of_head c : code_point c -> exists b u, utf8_of c = b :: u /\ ~ trail b /\ Forall trail u.
Proof.
  unfold code_point, utf8_of, trail. intro C.
  pose proof (Z.mod_pos_bound c 64 ltac:(lia)). pose proof (Z.mod_pos_bound (c / 64) 64 ltac:(lia)). pose proof (Z.mod_pos_bound (c / 4096) 64 ltac:(lia)).
  destruct (c <? 128) eqn:E1; [do 2 eexists; split; [reflexivity|]; split; [lia|constructor]|].
  destruct (c <? 2048) eqn:E2; [do 2 eexists; split; [reflexivity|]; split; [Z.to_euclidean_division_equations; lia|repeat constructor; lia]|].
  destruct (c <? 65536) eqn:E3; [do 2 eexists; split; [reflexivity|]; split; [Z.to_euclidean_division_equations; lia|repeat constructor; lia]|].
  do 2 eexists; split; [reflexivity|]; split; [Z.to_euclidean_division_equations; lia|repeat constructor; lia].
Qed.
(** UTF-8 is self-synchronizing: valid text occurs in valid text only at character boundaries. *)
Lemma occurs_text t : Forall scalar t -> t <> [] -> forall w a b, Forall scalar w -> utf8_text w = a ++ utf8_text t ++ b ->
  exists u v, w = u ++ t ++ v /\ a = utf8_text u /\ b = utf8_text v.
Proof.
  intros T NE. induction w as [|c w IH]; intros a b W E.
  - exfalso. destruct t as [|d t]; [congruence|]. rewrite text_cons in E. pose proof (utf8_of_ne d). destruct a; [|discriminate]. destruct (utf8_of d); [congruence|discriminate].
  - destruct a as [|x a].
    + destruct (prefix_text t T (c :: w) b W E) as (v & -> & ->). exists [], v. repeat split.
    + inversion W as [|? ? C W']; subst. rewrite text_cons in E.
      assert (L : exists a', x :: a = utf8_of c ++ a' /\ utf8_text w = a' ++ utf8_text t ++ b).
      { destruct (Nat.le_gt_cases (length (utf8_of c)) (length (x :: a))) as [G|G].
        - apply app_eq_app in E as (l & [[E1 E2]|[E1 E2]]).
          + assert (l = []) by (destruct l; [reflexivity|]; rewrite E1, app_length in G; cbn [length] in G; lia). subst l. rewrite app_nil_r in E1. exists []. split; [rewrite E1, app_nil_r; reflexivity|]. cbn [app] in *. symmetry. exact E2.
          + exists l. split; assumption.
        - exfalso. apply app_eq_app in E as (l & [[E1 E2]|[E1 E2]]).
          + destruct t as [|d t]; [congruence|]. inversion T as [|? ? D _]; subst. rewrite text_cons in E2.
            destruct (of_head d (scalar_cp d D)) as (h & u & E3 & H3 & _). rewrite E3 in E2. cbn [app] in E2.
            destruct l as [|y l]; [rewrite app_nil_r in E1; rewrite E1 in G; lia|]. injection E2 as <- _.
            destruct (of_head c (scalar_cp c C)) as (k & v & E4 & _ & T4). rewrite E4 in E1. injection E1 as <- E1. rewrite E1 in T4. apply Forall_app in T4 as [_ T4]. inversion T4; subst. contradiction.
          + rewrite E1, app_length in G. lia. }
      destruct L as (a' & E1 & E2). destruct (IH a' b W' E2) as (u & v & -> & -> & ->). exists (c :: u), v. split; [reflexivity|]. split; [rewrite text_cons; exact E1|reflexivity].
Qed.
