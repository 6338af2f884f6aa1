(** Packing and unpacking of small values: bit by bit. *)
From Verif Require Import Base BitsModel BitsSpec.
Open Scope Z_scope.

(** ** Bits of bytes *)
Lemma u8_land : forall x, u8 x = Z.land x (Z.ones 8).
Proof. intros. unfold u8. rewrite Z.land_ones by lia. reflexivity. Qed.

Lemma tb_u8 : forall x k, 0 <= k < 8 -> Z.testbit (u8 x) k = Z.testbit x k.
Proof.
  intros. rewrite u8_land, Z.land_spec, Z.ones_spec_low by lia. apply andb_true_r.
Qed.

Lemma tb_u8_high : forall x k, 8 <= k -> Z.testbit (u8 x) k = false.
Proof.
  intros. rewrite u8_land, Z.land_spec, Z.ones_spec_high by lia. apply andb_false_r.
Qed.

Lemma tb_shiftr : forall a n k e, 0 <= k -> k + n = e ->
  Z.testbit (Z.shiftr a n) k = Z.testbit a e.
Proof. intros. subst. apply Z.shiftr_spec. lia. Qed.

Lemma tb_shiftl : forall a n k e, 0 <= k -> k - n = e ->
  Z.testbit (Z.shiftl a n) k = Z.testbit a e.
Proof. intros. subst. apply Z.shiftl_spec. lia. Qed.

Lemma tb_small : forall x b k, 0 <= x < b -> b <= 2 ^ k -> 0 <= k -> Z.testbit x k = false.
Proof.
  intros. destruct (Z.eq_dec x 0) as [->|]; [apply Z.bits_0|].
  apply Z.bits_above_log2; [lia|]. apply Z.log2_lt_pow2; lia.
Qed.

Definition byte (x : Z) : Prop := 0 <= x < 256.

Lemma byte_u8 : forall x, byte (u8 x).
Proof. intros. unfold byte, u8. apply Z.mod_pos_bound. lia. Qed.
Lemma byte_lor : forall a b, byte a -> byte b -> byte (Z.lor a b).
Proof.
  unfold byte. intros a b A B. split; [apply Z.lor_nonneg; lia|].
  assert (E : Z.lor a b = u8 (Z.lor a b)).
  { apply Z.bits_inj'. intros k Hk. destruct (Z_lt_ge_dec k 8).
    - rewrite tb_u8 by lia. reflexivity.
    - rewrite tb_u8_high, Z.lor_spec by lia.
      assert (256 <= 2 ^ k) by (change 256 with (2 ^ 8); apply Z.pow_le_mono_r; lia).
      rewrite (tb_small a 256), (tb_small b 256) by lia. reflexivity. }
  rewrite E. apply byte_u8.
Qed.
Lemma byte_land : forall a b, 0 <= a -> byte b -> byte (Z.land a b).
Proof.
  unfold byte. intros a b A B. split; [apply Z.land_nonneg; lia|].
  assert (E : Z.land a b = u8 (Z.land a b)).
  { apply Z.bits_inj'. intros k Hk. destruct (Z_lt_ge_dec k 8).
    - rewrite tb_u8 by lia. reflexivity.
    - rewrite tb_u8_high, Z.land_spec by lia.
      assert (256 <= 2 ^ k) by (change 256 with (2 ^ 8); apply Z.pow_le_mono_r; lia).
      rewrite (tb_small b 256) by lia. apply andb_false_r. }
  rewrite E. apply byte_u8.
Qed.
Lemma byte_shiftr : forall a n, 0 <= n -> byte a -> byte (Z.shiftr a n).
Proof.
  unfold byte. intros a n N A. rewrite Z.shiftr_div_pow2 by lia.
  assert (0 < 2 ^ n) by (apply Z.pow_pos_nonneg; lia).
  split; [apply Z.div_pos; lia|]. apply Z.le_lt_trans with a; [|lia].
  apply Z.div_le_upper_bound; nia.
Qed.
Lemma byte_nonneg : forall a, byte a -> 0 <= a.
Proof. unfold byte. lia. Qed.

Lemma byte_eq : forall x y, byte x -> byte y ->
  (forall k, 0 <= k < 8 -> Z.testbit x k = Z.testbit y k) -> x = y.
Proof.
  unfold byte. intros x y X Y H. apply Z.bits_inj'. intros k Hk.
  destruct (Z_lt_ge_dec k 8); [apply H; lia|].
  assert (256 <= 2 ^ k) by (change 256 with (2 ^ 8); apply Z.pow_le_mono_r; lia).
  rewrite (tb_small x 256), (tb_small y 256) by lia. reflexivity.
Qed.

Ltac lit k := let e := eval compute in k in e.

Ltac bit1 :=
  match goal with
  | |- context [Z.testbit (Z.lor ?a ?b) ?k] => rewrite (Z.lor_spec a b k)
  | |- context [Z.testbit (Z.land ?a ?b) ?k] => rewrite (Z.land_spec a b k)
  | |- context [Z.testbit (Z.shiftr ?a ?n) ?k] =>
      let e := lit (k + n) in rewrite (tb_shiftr a n k e) by (lia || reflexivity)
  | |- context [Z.testbit (Z.shiftl ?a ?n) ?k] =>
      let e := lit (k - n) in
      rewrite (tb_shiftl a n k e) by (lia || reflexivity);
      match e with
      | Zneg _ => rewrite (Z.testbit_neg_r a e) by lia
      | _ => idtac
      end
  | |- context [Z.testbit (u8 ?a) ?k] => first [rewrite (tb_u8 a k) by lia | rewrite (tb_u8_high a k) by lia]
  | |- context [Z.testbit (Zpos ?c) ?k] =>
      let v := eval compute in (Z.testbit (Zpos c) k) in change (Z.testbit (Zpos c) k) with v
  | |- context [Z.testbit Z0 ?k] => change (Z.testbit 0 k) with false
  | H : 0 <= ?x < ?b |- context [Z.testbit ?x ?k] =>
      rewrite (tb_small x b k H ltac:(vm_compute; discriminate) ltac:(lia))
  end.

Ltac is_byte :=
  match goal with
  | |- byte (u8 _) => apply byte_u8
  | |- byte (Z.lor _ _) => apply byte_lor; is_byte
  | |- byte (Z.land _ _) => apply byte_land; [apply byte_nonneg|]; is_byte
  | |- byte (Z.shiftr _ _) => apply byte_shiftr; [lia|is_byte]
  | |- byte _ => unfold byte; lia
  end.

Ltac masks :=
  repeat match goal with
  | |- context [2 ^ ?n - 1] => let e := lit (2 ^ n - 1) in change (2 ^ n - 1) with e
  | |- context [255 - Z.shiftr 255 ?n] =>
      let e := lit (255 - Z.shiftr 255 n) in change (255 - Z.shiftr 255 n) with e
  end.

Ltac bitwise :=
  masks;
  apply byte_eq; [is_byte | is_byte |];
  let k := fresh "k" in let K := fresh "K" in
  intros k K;
  assert (k = 0 \/ k = 1 \/ k = 2 \/ k = 3 \/ k = 4 \/ k = 5 \/ k = 6 \/ k = 7) as KC by lia;
  clear K;
  destruct KC as [->|[->|[->|[->|[->|[->|[->| ->]]]]]]];
  repeat bit1;
  repeat rewrite ?andb_true_r, ?andb_false_r, ?andb_true_l, ?andb_false_l,
    ?orb_false_r, ?orb_false_l, ?orb_true_l, ?orb_true_r;
  try reflexivity;
  repeat match goal with |- context [Z.testbit ?x ?k] => destruct (Z.testbit x k) end;
  try reflexivity.

(** ** Memory *)
Lemma rd_hit : forall n m p v a i, a = p + i -> 0 <= i < n -> vst n m p v a = v i.
Proof.
  intros. subst. unfold vst.
  replace ((p <=? p + i) && (p + i <? p + n)) with true by (symmetry; lia).
  f_equal. lia.
Qed.
Lemma rd_miss : forall n m p v a, a < p \/ p + n <= a -> vst n m p v a = m a.
Proof.
  intros. unfold vst.
  replace ((p <=? a) && (a <? p + n)) with false by (symmetry; lia). reflexivity.
Qed.
Lemma vst_only : forall n m p v q len,
  q <= p -> p + n <= q + len -> only_changes m (vst n m p v) q len.
Proof. intros. intros a Ha. apply rd_miss. lia. Qed.
Lemma only_trans : forall m1 m2 m3 q len,
  only_changes m1 m2 q len -> only_changes m2 m3 q len -> only_changes m1 m3 q len.
Proof. intros m1 m2 m3 q len A B a Ha. rewrite (B a Ha). apply A. exact Ha. Qed.
Lemma only_refl : forall m q len, only_changes m m q len.
Proof. intros m q len a _. reflexivity. Qed.
Lemma only_wider : forall m m' p len q len', only_changes m m' p len ->
  q <= p -> p + len <= q + len' -> only_changes m m' q len'.
Proof. intros m m' p len q len' H ? ? a Ha. apply H. lia. Qed.

(** Read back one byte: [A] is the agreement, [l] the lane. *)
Ltac miss1 := rewrite rd_miss by lia.
Ltac unmem m' A l :=
  repeat match goal with
  | |- context [m' ?a] =>
      let X := fresh "X" in
      eassert (X : m' a = _);
      [ rewrite (A a) by lia;
        unfold put, vst1q, vst1;
        repeat match goal with
        | |- context [vst ?n ?mm ?q ?v a] =>
          first [ rewrite (rd_miss n mm q v a) by lia
                | rewrite (rd_hit n mm q v a l) by lia
                | rewrite (rd_hit n mm q v a (l + 8)) by lia
                | rewrite (rd_hit n mm q v a 0) by lia ]
        end; reflexivity
      | rewrite X; clear X ]
  end.

Ltac regs := cbv beta delta [vand vorr vshl_n vshr_n vsli_n vsri_n vdup vget_low vget_high vld].

Definition below (b : Z) (v : vec) : Prop := forall i, 0 <= i < 16 -> 0 <= v i < b.

Definition lanes_of (us : list vec) (vs : list vec) : Prop :=
  length us = length vs /\
  forall j i, (j < length us)%nat -> 0 <= i < 16 -> nth j us (vdup 0) i = nth j vs (vdup 0) i.
