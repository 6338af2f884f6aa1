(** UTF-8 conversion and the byte-level alphabet. *)
From Verif Require Import Base DTypeModel ParamModel TensorModel TokModel TokSpec.
Local Open Scope Z_scope.

(** *** Bit operations as arithmetic *)
Lemma land_ones_mod a n : 0 <= n -> Z.land a (2 ^ n - 1) = a mod 2 ^ n.
Proof. intros H. replace (2 ^ n - 1) with (Z.ones n) by (rewrite Z.ones_equiv; lia). apply Z.land_ones; lia. Qed.
Lemma lor_add a b n : 0 <= n -> 0 <= b < 2 ^ n -> Z.lor (a * 2 ^ n) b = a * 2 ^ n + b.
Proof.
  intros Hn Hb. symmetry. rewrite <- Z.lxor_lor; [apply Z.add_nocarry_lxor|].
  all: apply Z.bits_inj'; intros i Hi; rewrite Z.land_spec, Z.bits_0;
    destruct (Z_lt_le_dec i n);
    [rewrite Z.mul_pow2_bits_low by lia; reflexivity
    |rewrite <- (Z.mod_small b (2 ^ n)) by lia; rewrite Z.mod_pow2_bits_high by lia; apply andb_false_r].
Qed.
Lemma band31 a : band a 31 = a mod 32. Proof. apply (land_ones_mod a 5); lia. Qed.
Lemma band15 a : band a 15 = a mod 16. Proof. apply (land_ones_mod a 4); lia. Qed.
Lemma band7 a : band a 7 = a mod 8. Proof. apply (land_ones_mod a 3); lia. Qed.
Lemma band63 a : band a 63 = a mod 64. Proof. apply (land_ones_mod a 6); lia. Qed.
Lemma shr_div a n : 0 <= n -> shr a n = a / 2 ^ n. Proof. intros. apply Z.shiftr_div_pow2; auto. Qed.
Lemma shl_mul a n : 0 <= n -> Z.shiftl a n = a * 2 ^ n. Proof. intros. apply Z.shiftl_mul_pow2; auto. Qed.
Lemma bor_add c b n : 0 <= n -> c mod 2 ^ n = 0 -> 0 <= b < 2 ^ n -> bor c b = c + b.
Proof.
  intros Hn Hc Hb. unfold bor. pose proof (Z.div_mod c (2 ^ n) ltac:(lia)) as E. rewrite Hc, Z.add_0_r, Z.mul_comm in E.
  rewrite E. apply lor_add; auto.
Qed.

Lemma encode_char_ok c : code_point c -> encode_char c = utf8_of c.
Proof.
  unfold code_point, encode_char, utf8_of. intros H. cbv zeta.
  rewrite (Z.mod_small c (2 ^ 32)) by lia.
  rewrite !band63, ?band31, ?band15, ?band7, ?shr_div by lia.
  change (2 ^ 6) with 64. change (2 ^ 12) with 4096. change (2 ^ 18) with 262144.
  assert (B : forall x k n, 0 <= n -> k mod 2 ^ n = 0 -> 0 <= k -> k + 2 ^ n <= 256 -> 0 <= x < 2 ^ n -> to_byte (bor k x) = k + x).
  { intros x k n Hn Hk Hk0 Hk1 Hx. unfold to_byte. rewrite (bor_add k x n) by assumption. apply Z.mod_small. lia. }
  assert (C6 : forall x, to_byte (bor 128 (x mod 64)) = 128 + x mod 64).
  { intros x. apply (B _ _ 6); [lia|reflexivity|lia|vm_compute; discriminate|apply Z.mod_pos_bound; reflexivity]. }
  rewrite !C6.
  destruct (c <=? 127) eqn:E1; destruct (c <? 128) eqn:F1; try lia.
  { unfold to_byte. rewrite Z.mod_small by lia. reflexivity. }
  destruct (c <=? 2047) eqn:E2; destruct (c <? 2048) eqn:F2; try lia.
  { rewrite (B ((c / 64) mod 32) 192 5); [|lia|reflexivity|lia|vm_compute; discriminate|apply Z.mod_pos_bound; reflexivity].
    rewrite (Z.mod_small (c / 64) 32); [reflexivity|]. split; [apply Z.div_pos; lia|apply Z.div_lt_upper_bound; lia]. }
  destruct (c <=? 65535) eqn:E3; destruct (c <? 65536) eqn:F3; try lia.
  { rewrite (B ((c / 4096) mod 16) 224 4); [|lia|reflexivity|lia|vm_compute; discriminate|apply Z.mod_pos_bound; reflexivity].
    rewrite (Z.mod_small (c / 4096) 16); [reflexivity|]. split; [apply Z.div_pos; lia|apply Z.div_lt_upper_bound; lia]. }
  destruct (c <=? 1114111) eqn:E4; [|lia].
  rewrite (B ((c / 262144) mod 8) 240 3); [|lia|reflexivity|lia|vm_compute; discriminate|apply Z.mod_pos_bound; reflexivity].
  rewrite (Z.mod_small (c / 262144) 8); [reflexivity|]. split; [apply Z.div_pos; lia|apply Z.div_lt_upper_bound; lia].
Qed.
Lemma wide_to_utf8_ok w : Forall code_point w -> wide_to_utf8 w = utf8_text w.
Proof.
  unfold wide_to_utf8, utf8_text. induction 1; [reflexivity|]. cbn [flat_map map concat].
  rewrite encode_char_ok by assumption. f_equal. assumption.
Qed.

(** *** Byte classes, by inspection of the 256 bytes *)
Lemma byte_cases (P : Z -> bool) : forallb P (zrange 0 255) = true -> forall b, 0 <= b <= 255 -> P b = true.
Proof.
  intros H b Hb. rewrite forallb_forall in H. apply H. unfold zrange. apply in_map_iff.
  exists (Z.to_nat b). split; [lia|]. apply in_seq. lia.
Qed.
Definition class_check (b : Z) : bool :=
  (if b <? 128 then band b 128 =? 0 else negb (band b 128 =? 0)) &&
  (if (192 <=? b) && (b <? 224) then (band b 224 =? 192) && (band b 31 =? b - 192) else negb (band b 224 =? 192)) &&
  (if (224 <=? b) && (b <? 240) then (band b 240 =? 224) && (band b 15 =? b - 224) else negb (band b 240 =? 224)) &&
  (if (240 <=? b) && (b <? 248) then (band b 248 =? 240) && (band b 7 =? b - 240) else negb (band b 248 =? 240)) &&
  (if (128 <=? b) && (b <? 192) then band b 63 =? b - 128 else true).
Lemma class_ok b : 0 <= b <= 255 -> class_check b = true.
Proof. apply byte_cases. vm_compute. reflexivity. Qed.

Lemma vget_app (a b : list Z) (x i : Z) : i = zlen a -> vget (a ++ x :: b) i = ROk x.
Proof.
  intros ->. unfold vget, zlen. rewrite Nat2Z.id, nth_error_app2, Nat.sub_diag by lia. cbn [nth_error].
  destruct (0 <=? Z.of_nat (length a)) eqn:E; try reflexivity; lia.
Qed.
Lemma zlen_app {A} (a b : list A) : zlen (a ++ b) = zlen a + zlen b.
Proof. unfold zlen. rewrite app_length. lia. Qed.
Lemma zlen_cons {A} (x : A) l : zlen (x :: l) = 1 + zlen l.
Proof. unfold zlen. cbn [length]. lia. Qed.
Lemma zlen_pos {A} (l : list A) : 0 <= zlen l. Proof. unfold zlen. lia. Qed.
Lemma band_cont x : 0 <= x < 64 -> band (128 + x) 63 = x.
Proof. intros H. rewrite band63. replace (128 + x) with (x + 2 * 64) by lia. rewrite Z.mod_add by lia. apply Z.mod_small; lia. Qed.


Lemma ascii_class q : 0 <= q < 128 -> (band q 128 =? 0) = true.
Proof. intros H. pose proof (class_ok q ltac:(lia)) as K. unfold class_check in K. replace (q <? 128) with true in K by lia. repeat (apply andb_prop in K as [K ?]). assumption. Qed.
Lemma lead2_class q : 0 <= q < 32 -> (band (192 + q) 128 =? 0) = false /\ (band (192 + q) 224 =? 192) = true /\ band (192 + q) 31 = q.
Proof.
  intros H. pose proof (class_ok (192 + q) ltac:(lia)) as K. unfold class_check in K.
  replace (192 + q <? 128) with false in K by lia. replace ((192 <=? 192 + q) && (192 + q <? 224)) with true in K by lia.
  repeat (apply andb_prop in K as [K ?]). apply andb_prop in H3 as [H3 H4]. apply negb_true_iff in K. repeat split; auto. lia.
Qed.
Lemma lead3_class q : 0 <= q < 16 -> (band (224 + q) 128 =? 0) = false /\ (band (224 + q) 224 =? 192) = false /\ (band (224 + q) 240 =? 224) = true /\ band (224 + q) 15 = q.
Proof.
  intros H. pose proof (class_ok (224 + q) ltac:(lia)) as K. unfold class_check in K.
  replace (224 + q <? 128) with false in K by lia. replace ((192 <=? 224 + q) && (224 + q <? 224)) with false in K by lia.
  replace ((224 <=? 224 + q) && (224 + q <? 240)) with true in K by lia.
  repeat (apply andb_prop in K as [K ?]). apply andb_prop in H2 as [H2 H4]. apply negb_true_iff in K, H3. repeat split; auto. lia.
Qed.
Lemma lead4_class q : 0 <= q < 8 -> (band (240 + q) 128 =? 0) = false /\ (band (240 + q) 224 =? 192) = false /\ (band (240 + q) 240 =? 224) = false /\ (band (240 + q) 248 =? 240) = true /\ band (240 + q) 7 = q.
Proof.
  intros H. pose proof (class_ok (240 + q) ltac:(lia)) as K. unfold class_check in K.
  replace (240 + q <? 128) with false in K by lia. replace ((192 <=? 240 + q) && (240 + q <? 224)) with false in K by lia.
  replace ((224 <=? 240 + q) && (240 + q <? 240)) with false in K by lia.
  replace ((240 <=? 240 + q) && (240 + q <? 248)) with true in K by lia.
  repeat (apply andb_prop in K as [K ?]). apply andb_prop in H1 as [H1 H4]. apply negb_true_iff in K, H2, H3. repeat split; auto. lia.
Qed.

Lemma vget_at (a b l : list Z) (x k : Z) : 0 <= k -> nth_error l (Z.to_nat k) = Some x -> vget (a ++ l ++ b) (zlen a + k) = ROk x.
Proof.
  intros Hk H. unfold vget, zlen.
  rewrite nth_error_app2 by lia. rewrite nth_error_app1 by (apply nth_error_Some; replace (Z.to_nat (Z.of_nat (length a) + k) - length a)%nat with (Z.to_nat k) by lia; congruence).
  replace (Z.to_nat (Z.of_nat (length a) + k) - length a)%nat with (Z.to_nat k) by lia. rewrite H.
  destruct (0 <=? Z.of_nat (length a) + k) eqn:E; try reflexivity; lia.
Qed.
Lemma vget_at0 (a b l : list Z) (x : Z) : nth_error l 0 = Some x -> vget (a ++ l ++ b) (zlen a) = ROk x.
Proof. intros H. rewrite <- (Z.add_0_r (zlen a)). apply vget_at; [lia|assumption]. Qed.

Lemma decode_step f pre c suf acc : code_point c ->
  utf8_loop (S f) (pre ++ utf8_of c ++ suf) (zlen pre) acc
  = utf8_loop f (pre ++ utf8_of c ++ suf) (zlen pre + zlen (utf8_of c)) (acc ++ [c]).
Proof.
  unfold code_point. intros Hc.
  assert (P := zlen_pos pre). assert (Q := zlen_pos suf).
  assert (M6 : forall x, 0 <= x mod 64 < 64) by (intros; apply Z.mod_pos_bound; reflexivity).
  assert (U : utf8_of c = if c <? 128 then [c]
    else if c <? 2048 then [192 + c / 64; 128 + c mod 64]
    else if c <? 65536 then [224 + c / 4096; 128 + (c / 64) mod 64; 128 + c mod 64]
    else [240 + c / 262144; 128 + (c / 4096) mod 64; 128 + (c / 64) mod 64; 128 + c mod 64]) by reflexivity.
  assert (D1 : c = 64 * (c / 64) + c mod 64) by (apply Z.div_mod; lia).
  assert (D2 : c / 64 = 64 * (c / 4096) + (c / 64) mod 64).
  { change 4096 with (64 * 64). rewrite <- Z.div_div by lia. apply Z.div_mod; lia. }
  assert (D3 : c / 4096 = 64 * (c / 262144) + (c / 4096) mod 64).
  { change 262144 with (4096 * 64). rewrite <- Z.div_div by lia. apply Z.div_mod; lia. }
  pose proof (M6 c). pose proof (M6 (c / 64)). pose proof (M6 (c / 4096)).
  set (l := utf8_of c) in *. cbn [utf8_loop]. rewrite !zlen_app.
  destruct (c <? 128) eqn:E1.
  { replace (zlen l) with 1 by (rewrite U; reflexivity).
    replace (zlen pre <? zlen pre + (1 + zlen suf)) with true by lia. cbn [negb].
    rewrite (vget_at0 pre suf l c) by (rewrite U; reflexivity). cbn [rbind].
    rewrite ascii_class by lia. reflexivity. }
  destruct (c <? 2048) eqn:E2.
  { replace (zlen l) with 2 by (rewrite U; reflexivity).
    replace (zlen pre <? zlen pre + (2 + zlen suf)) with true by lia. cbn [negb].
    rewrite (vget_at0 pre suf l (192 + c / 64)) by (rewrite U; reflexivity). cbn [rbind].
    destruct (lead2_class (c / 64)) as [K1 [K2 K3]]; [lia|]. rewrite K1, K2, K3.
    replace (zlen pre + 1 <? zlen pre + (2 + zlen suf)) with true by lia.
    rewrite (vget_at pre suf l (128 + c mod 64) 1) by (rewrite ?U; lia || reflexivity). cbn [rbind].
    rewrite band_cont by lia. rewrite shl_mul by lia.
    rewrite (bor_add _ _ 6) by (lia || apply Z.mod_mul; discriminate).
    f_equal. do 2 f_equal. lia. }
  destruct (c <? 65536) eqn:E3.
  { replace (zlen l) with 3 by (rewrite U; reflexivity).
    replace (zlen pre <? zlen pre + (3 + zlen suf)) with true by lia. cbn [negb].
    rewrite (vget_at0 pre suf l (224 + c / 4096)) by (rewrite U; reflexivity). cbn [rbind].
    destruct (lead3_class (c / 4096)) as [K1 [K2 [K3 K4]]]; [lia|]. rewrite K1, K2, K3, K4.
    replace (zlen pre + 2 <? zlen pre + (3 + zlen suf)) with true by lia.
    rewrite (vget_at pre suf l (128 + (c / 64) mod 64) 1) by (rewrite ?U; lia || reflexivity). cbn [rbind].
    rewrite (vget_at pre suf l (128 + c mod 64) 2) by (rewrite ?U; lia || reflexivity). cbn [rbind].
    rewrite !band_cont by lia. rewrite !shl_mul by lia.
    rewrite (bor_add (c / 4096 * 2 ^ 12) _ 12) by (try lia; apply Z.mod_mul; discriminate).
    rewrite (bor_add _ _ 6); [|lia| |lia].
    2: { replace (c / 4096 * 2 ^ 12 + (c / 64) mod 64 * 2 ^ 6) with ((c / 4096 * 64 + (c / 64) mod 64) * 2 ^ 6) by lia. apply Z.mod_mul. discriminate. }
    f_equal. do 2 f_equal. lia. }
  { replace (zlen l) with 4 by (rewrite U; reflexivity).
    replace (zlen pre <? zlen pre + (4 + zlen suf)) with true by lia. cbn [negb].
    rewrite (vget_at0 pre suf l (240 + c / 262144)) by (rewrite U; reflexivity). cbn [rbind].
    destruct (lead4_class (c / 262144)) as [K1 [K2 [K3 [K4 K5]]]]; [lia|]. rewrite K1, K2, K3, K4, K5.
    replace (zlen pre + 3 <? zlen pre + (4 + zlen suf)) with true by lia.
    rewrite (vget_at pre suf l (128 + (c / 4096) mod 64) 1) by (rewrite ?U; lia || reflexivity). cbn [rbind].
    rewrite (vget_at pre suf l (128 + (c / 64) mod 64) 2) by (rewrite ?U; lia || reflexivity). cbn [rbind].
    rewrite (vget_at pre suf l (128 + c mod 64) 3) by (rewrite ?U; lia || reflexivity). cbn [rbind].
    rewrite !band_cont by lia. rewrite !shl_mul by lia.
    rewrite (bor_add (c / 262144 * 2 ^ 18) _ 18) by (try lia; apply Z.mod_mul; discriminate).
    rewrite (bor_add _ ((c / 64) mod 64 * 2 ^ 6) 12); [|lia| |lia].
    2: { replace (c / 262144 * 2 ^ 18 + (c / 4096) mod 64 * 2 ^ 12) with ((c / 262144 * 64 + (c / 4096) mod 64) * 2 ^ 12) by lia. apply Z.mod_mul. discriminate. }
    rewrite (bor_add _ _ 6); [|lia| |lia].
    2: { replace (c / 262144 * 2 ^ 18 + (c / 4096) mod 64 * 2 ^ 12 + (c / 64) mod 64 * 2 ^ 6) with ((c / 262144 * 4096 + (c / 4096) mod 64 * 64 + (c / 64) mod 64) * 2 ^ 6) by lia. apply Z.mod_mul. discriminate. }
    f_equal. do 2 f_equal. lia. }
Qed.

Lemma utf8_of_length c : (1 <= length (utf8_of c))%nat.
Proof. unfold utf8_of. destruct (c <? 128); [cbn; lia|]. destruct (c <? 2048); [cbn; lia|]. destruct (c <? 65536); cbn; lia. Qed.
Lemma utf8_text_length w : (length w <= length (utf8_text w))%nat.
Proof. induction w; [cbn; lia|]. unfold utf8_text. cbn [map concat]. rewrite app_length. pose proof (utf8_of_length a). unfold utf8_text in IHw. cbn [length]. lia. Qed.

(** Decoding a prefix that is well-formed. *)
Lemma decode_prefix : forall w f pre suf acc, Forall code_point w ->
  utf8_loop (length w + f) (pre ++ utf8_text w ++ suf) (zlen pre) acc
  = utf8_loop f (pre ++ utf8_text w ++ suf) (zlen pre + zlen (utf8_text w)) (acc ++ w).
Proof.
  induction w as [|c w IH]; intros f pre suf acc H.
  { cbn [length Nat.add utf8_text map concat]. change (zlen (concat (map utf8_of []))) with 0. rewrite Z.add_0_r, app_nil_r. reflexivity. }
  inversion H; subst. unfold utf8_text. cbn [map concat]. fold (utf8_text w).
  cbn [length Nat.add]. rewrite <- app_assoc. rewrite decode_step by assumption.
  replace (pre ++ utf8_of c ++ utf8_text w ++ suf) with ((pre ++ utf8_of c) ++ utf8_text w ++ suf) by (rewrite <- app_assoc; reflexivity).
  rewrite <- (zlen_app pre). rewrite IH by assumption. rewrite !zlen_app, <- !app_assoc. cbn [app].
  f_equal. lia.
Qed.
Lemma decode_end f s i acc : (f > 0)%nat -> zlen s <= i -> utf8_loop f s i acc = ROk acc.
Proof. intros Hf Hi. destruct f; [lia|]. cbn [utf8_loop]. replace (i <? zlen s) with false by lia. reflexivity. Qed.
Lemma decode_ok w : Forall code_point w -> utf8_to_wide (utf8_text w) = ROk w.
Proof.
  intros H. unfold utf8_to_wide. pose proof (utf8_text_length w).
  replace (S (length (utf8_text w))) with (length w + (S (length (utf8_text w)) - length w))%nat by lia.
  pose proof (decode_prefix w (S (length (utf8_text w)) - length w) [] [] [] H) as E.
  rewrite app_nil_r in E. cbn [app] in E. change (zlen (@nil Z)) with 0 in E. rewrite E.
  apply decode_end; lia.
Qed.

(** Every byte string is decoded without reading behind its end. *)
Lemma vget_some (s : list Z) i : 0 <= i -> i < zlen s -> exists b, vget s i = ROk b.
Proof.
  intros H0 H1. unfold vget, zlen in *. destruct (nth_error s (Z.to_nat i)) eqn:E.
  - exists z. destruct (0 <=? i) eqn:F; try reflexivity; lia.
  - apply nth_error_None in E. lia.
Qed.
Lemma decode_total : forall f s i acc, 0 <= i -> (Z.to_nat (zlen s - i) < f)%nat ->
  exists w, utf8_loop f s i acc = ROk (acc ++ w) /\ zlen w <= Z.max 0 (zlen s - i).
Proof.
  induction f as [|f IH]; intros s i acc Hi Hf; [lia|]. cbn [utf8_loop].
  destruct (i <? zlen s) eqn:E; cbn [negb].
  2: { exists []. rewrite app_nil_r. split; [reflexivity|]. change (zlen (@nil Z)) with 0. lia. }
  assert (N : exists w, ROk acc = ROk (acc ++ w) /\ zlen w <= Z.max 0 (zlen s - i)).
  { exists []. rewrite app_nil_r. split; [reflexivity|]. change (zlen (@nil Z)) with 0. lia. }
  assert (Step : forall k x, 1 <= k -> exists w, utf8_loop f s (i + k) (acc ++ [x]) = ROk (acc ++ w) /\ zlen w <= Z.max 0 (zlen s - i)).
  { intros k x Hk. destruct (IH s (i + k) (acc ++ [x])) as [w [Hw Hl]]; [lia|lia|].
    exists (x :: w). rewrite Hw, <- app_assoc. cbn [app]. split; [reflexivity|]. rewrite zlen_cons. lia. }
  destruct (vget_some s i) as [b Hb]; [lia|lia|]. rewrite Hb. cbn [rbind].
  destruct (band b 128 =? 0); [apply Step; lia|].
  destruct (band b 224 =? 192).
  { destruct (i + 1 <? zlen s) eqn:E1; [|assumption].
    destruct (vget_some s (i + 1)) as [b1 Hb1]; [lia|lia|]. rewrite Hb1. cbn [rbind]. apply Step; lia. }
  destruct (band b 240 =? 224).
  { destruct (i + 2 <? zlen s) eqn:E1; [|assumption].
    destruct (vget_some s (i + 1)) as [b1 Hb1]; [lia|lia|]. rewrite Hb1. cbn [rbind].
    destruct (vget_some s (i + 2)) as [b2 Hb2]; [lia|lia|]. rewrite Hb2. cbn [rbind]. apply Step; lia. }
  destruct (band b 248 =? 240).
  { destruct (i + 3 <? zlen s) eqn:E1; [|assumption].
    destruct (vget_some s (i + 1)) as [b1 Hb1]; [lia|lia|]. rewrite Hb1. cbn [rbind].
    destruct (vget_some s (i + 2)) as [b2 Hb2]; [lia|lia|]. rewrite Hb2. cbn [rbind].
    destruct (vget_some s (i + 3)) as [b3 Hb3]; [lia|lia|]. rewrite Hb3. cbn [rbind]. apply Step; lia. }
  destruct (IH s (i + 1) acc) as [w [Hw Hl]]; [lia|lia|]. exists w. split; [assumption|lia].
Qed.
Lemma utf8_to_wide_total s : exists w, utf8_to_wide s = ROk w /\ (length w <= length s)%nat.
Proof.
  destruct (decode_total (S (length s)) s 0 []) as [w [Hw Hl]]; [lia|unfold zlen; lia|].
  exists w. split; [assumption|]. unfold zlen in Hl. lia.
Qed.
(** A cut character at the end of a well-formed text disappears. *)
Lemma decode_cut w c k : Forall code_point w -> code_point c -> (0 < k < length (utf8_of c))%nat ->
  utf8_to_wide (utf8_text w ++ firstn k (utf8_of c)) = ROk w.
Proof.
  intros H Hc Hk. unfold utf8_to_wide. pose proof (utf8_text_length w). rewrite app_length.
  set (t := firstn k (utf8_of c)). assert (Hn : (0 < length t)%nat) by (unfold t; rewrite firstn_length; lia).
  replace (S (length (utf8_text w) + length t)) with (length w + S (length (utf8_text w) + length t - length w))%nat by lia.
  pose proof (decode_prefix w (S (length (utf8_text w) + length t - length w)) [] t [] H) as E.
  cbn [app] in E. change (zlen (@nil Z)) with 0 in E. rewrite E. clear E.
  unfold code_point in Hc. cbn [utf8_loop]. rewrite zlen_app. change (0 + zlen (utf8_text w)) with (zlen (utf8_text w)).
  replace (zlen (utf8_text w) <? zlen (utf8_text w) + zlen t) with true by (unfold zlen; lia). cbn [negb].
  assert (M6 : forall x, 0 <= x mod 64 < 64) by (intros; apply Z.mod_pos_bound; reflexivity).
  assert (Lt : zlen t = Z.of_nat k) by (unfold t, zlen; rewrite firstn_length; lia).
  assert (V : forall b, nth_error (utf8_of c) 0 = Some b -> vget (utf8_text w ++ t) (zlen (utf8_text w)) = ROk b).
  { intros b Hb. rewrite <- (app_nil_r t). apply vget_at0. unfold t. destruct k; [lia|]. destruct (utf8_of c); [discriminate|]. exact Hb. }
  unfold utf8_of in V, Hk. 
  destruct (c <? 128) eqn:E1. { cbn [length] in Hk. lia. }
  destruct (c <? 2048) eqn:E2.
  { rewrite (V _ eq_refl). cbn [rbind].
    destruct (lead2_class (c / 64)) as [K1 [K2 K3]]; [split; [apply Z.div_pos; lia|apply Z.div_lt_upper_bound; lia]|].
    rewrite K1, K2. cbn [length] in Hk. replace (_ <? _) with false by lia. reflexivity. }
  destruct (c <? 65536) eqn:E3.
  { rewrite (V _ eq_refl). cbn [rbind].
    destruct (lead3_class (c / 4096)) as [K1 [K2 [K3 K4]]]; [split; [apply Z.div_pos; lia|apply Z.div_lt_upper_bound; lia]|].
    rewrite K1, K2, K3. cbn [length] in Hk. replace (_ <? _) with false by lia. reflexivity. }
  { rewrite (V _ eq_refl). cbn [rbind].
    destruct (lead4_class (c / 262144)) as [K1 [K2 [K3 [K4 K5]]]]; [split; [apply Z.div_pos; lia|apply Z.div_lt_upper_bound; lia]|].
    rewrite K1, K2, K3, K4. cbn [length] in Hk. replace (_ <? _) with false by lia. reflexivity. }
Qed.

(** *** The byte-level alphabet *)
Lemma dict_total b : is_byte b -> exists c, assoc b byte_dict = Some c /\ 33 <= c <= 323.
Proof.
  intros H. pose proof (byte_cases (fun b => match assoc b byte_dict with Some c => (33 <=? c) && (c <=? 323) | None => false end) ltac:(vm_compute; reflexivity) b H) as K.
  cbv beta in K. destruct (assoc b byte_dict) as [c|]; [|discriminate]. exists c. split; [reflexivity|lia].
Qed.
Lemma lookup_byte b : is_byte b -> assoc b byte_dict = Some (lookup0 byte_dict b).
Proof. intros H. destruct (dict_total b H) as [c [E _]]. unfold lookup0. rewrite E. reflexivity. Qed.
Lemma dict_keys : forallb (fun e => (0 <=? fst e) && (fst e <=? 255)) byte_dict = true.
Proof. vm_compute. reflexivity. Qed.
Lemma dict_vals_nodup : NoDup (map snd byte_dict).
Proof.
  assert (forall l, (fix nd l := match l with [] => true | x :: r => negb (existsb (Z.eqb x) r) && nd r end) l = true -> NoDup l) as K.
  { induction l as [|x r IH]; intros H; constructor; apply andb_prop in H as [H1 H2].
    - intros Hx. apply negb_true_iff in H1. assert (existsb (Z.eqb x) r = true); [|congruence]. apply existsb_exists. exists x. split; [assumption|lia].
    - apply IH; assumption. }
  apply K. vm_compute. reflexivity.
Qed.
Lemma assoc_in {V} (m : list (Z * V)) k v : assoc k m = Some v -> In (k, v) m.
Proof.
  unfold assoc. destruct (find _ m) eqn:E; [|discriminate]. intros [= <-]. apply find_some in E as [E1 E2].
  destruct p as [a b]; cbn [fst snd] in *. apply Z.eqb_eq in E2. subst. assumption.
Qed.
Lemma in_assoc {V} (m : list (Z * V)) k v : NoDup (map fst m) -> In (k, v) m -> assoc k m = Some v.
Proof.
  induction m as [|[a b] m IH]; intros N H; [destruct H|]. inversion N; subst. unfold assoc. cbn [find fst].
  destruct H as [[= -> ->]|H].
  - rewrite Z.eqb_refl. reflexivity.
  - destruct (a =? k) eqn:E.
    + exfalso. apply Z.eqb_eq in E. subst. apply H2. apply (in_map fst) in H. exact H.
    + apply IH in H; [|assumption]. exact H.
Qed.
Lemma dict_inj b b' : is_byte b -> is_byte b' -> lookup0 byte_dict b = lookup0 byte_dict b' -> b = b'.
Proof.
  intros H H' E. apply lookup_byte in H, H'. rewrite E in H. apply assoc_in in H, H'.
  assert (K : forall (m : list (Z * Z)) a a' c, NoDup (map snd m) -> In (a, c) m -> In (a', c) m -> a = a').
  { clear. induction m as [|[x y] m IH]; intros a a' c N Ha Ha'; [destruct Ha|]. inversion N; subst.
    destruct Ha as [[= -> ->]|Ha], Ha' as [[= -> ]|Ha']; auto.
    - subst. exfalso. apply H1. apply (in_map snd) in Ha'. exact Ha'.
    - subst. exfalso. apply H1. apply (in_map snd) in Ha. exact Ha.
    - eapply IH; eauto. }
  eapply K; [apply dict_vals_nodup|exact H|exact H'].
Qed.
(** Inserting entries with distinct keys. *)
Lemma insert_all {V} : forall (l m : list (Z * V)), NoDup (map fst (m ++ l)) -> fold_left map_insert l m = m ++ l.
Proof.
  induction l as [|e l IH]; intros m H; [rewrite app_nil_r; reflexivity|]. cbn [fold_left].
  assert (E : map_insert m e = m ++ [e]).
  { unfold map_insert. destruct (assoc (fst e) m) eqn:A; [|reflexivity]. exfalso. apply assoc_in in A.
    rewrite map_app in H. cbn [map] in H. apply NoDup_remove_2 in H. apply H. apply in_or_app. left. apply (in_map fst) in A. exact A. }
  rewrite E, IH; rewrite <- app_assoc; [reflexivity|assumption].
Qed.
Lemma inverse_ok entries b : Permutation entries byte_dict -> is_byte b ->
  lookup0 (inverse_dict entries) (lookup0 byte_dict b) = b.
Proof.
  intros P H. unfold inverse_dict.
  assert (N : NoDup (map fst (map (fun e : Z * Z => (snd e, fst e)) entries))).
  { rewrite map_map. cbn [fst]. eapply Permutation_NoDup; [apply Permutation_sym, Permutation_map, P|apply dict_vals_nodup]. }
  rewrite insert_all by exact N. cbn [app]. unfold lookup0 at 1.
  rewrite (in_assoc _ _ b N); [reflexivity|].
  apply in_map_iff. exists (b, lookup0 byte_dict b). split; [reflexivity|].
  eapply Permutation_in; [apply Permutation_sym, P|]. apply assoc_in, lookup_byte, H.
Qed.
