(** * Properties of the low-bit weight packing (C134-C138). *)
From Verif Require Import Base BitsModel BitsSpec BitsProofs BitsDispatch BitsWidth BitsValues
  BitsWeights BitsUnpack.
Open Scope Z_scope.

(** ** C134: packing a buffer of signed values loses nothing

    For every width of 1 to 8 bits and every buffer size the kernels support,
    packing writes exactly nbit * count / 8 bytes at the pointer (nothing
    outside changes), and unpacking from any memory that has these bytes gives
    the values back. *)
Theorem C134_packed_values_come_back :
  forall nbit count m p buf, 1 <= nbit <= 8 ->
  count = 32 \/ count = 64 \/ count = 128 ->
  (forall i, 0 <= i < count -> fits nbit (buf i)) ->
  only_changes m (pack_buffer nbit count m p buf) p (nbit * count / 8) /\
  forall m', same_bytes (pack_buffer nbit count m p buf) m' p (nbit * count / 8) ->
  forall i, 0 <= i < count -> unpack_buffer nbit count m' p i = buf i.
Proof. exact buffer_round. Qed.

(** Two buffers of fitting values with the same packed bytes are the same. *)
Theorem C134_packing_is_injective :
  forall nbit count m m2 p buf buf2, 1 <= nbit <= 8 ->
  count = 32 \/ count = 64 \/ count = 128 ->
  (forall i, 0 <= i < count -> fits nbit (buf i) /\ fits nbit (buf2 i)) ->
  same_bytes (pack_buffer nbit count m p buf) (pack_buffer nbit count m2 p buf2) p (nbit * count / 8) ->
  forall i, 0 <= i < count -> buf i = buf2 i.
Proof.
  intros nbit count m m2 p buf buf2 W C F S i Hi.
  destruct (buffer_round nbit count m p buf W C (fun i Hi => proj1 (F i Hi))) as (_ & R).
  destruct (buffer_round nbit count m2 p buf2 W C (fun i Hi => proj2 (F i Hi))) as (_ & R2).
  rewrite <- (R _ S i Hi). symmetry. rewrite <- (R2 (pack_buffer nbit count m2 p buf2)) by
    (first [exact Hi | intros a _; reflexivity]). reflexivity.
Qed.

(** A value that does not fit in the width is not kept: the hypothesis matters. *)
Example C134_misfit :
  unpack_buffer 3 32 (pack_buffer 3 32 (fun _ => 0) 0 (fun i => if i =? 0 then 4 else 0)) 0 0 <> 4.
Proof. vm_compute. discriminate. Qed.

Definition buf134 (i : Z) : Z := (i * 5) mod 8 - 4.
Lemma C134_hypotheses : forall i, 0 <= i < 64 -> fits 3 (buf134 i).
Proof.
  intros i Hi. unfold fits, buf134. assert (M := Z.mod_pos_bound (i * 5) 8 ltac:(lia)).
  change (2 ^ (3 - 1)) with 4. lia.
Qed.
Example C134_example :
  map (unpack_buffer 3 64 (pack_buffer 3 64 (fun _ => 7) 100 buf134) 100) [0; 1; 31; 63]
  = map buf134 [0; 1; 31; 63] /\ pack_buffer 3 64 (fun _ => 7) 100 buf134 124 = 7 /\
  pack_buffer 3 64 (fun _ => 7) 100 buf134 123 <> 7.
Proof. split; [vm_compute; reflexivity|]. split; vm_compute; [reflexivity|discriminate]. Qed.

(** ** C135: unsigned values, look-up tables *)
Lemma stored_each : forall (g : Z -> Z) buf (us : list vec) offs,
  offs = seq 0 (length offs) ->
  lanes_of us (map (fun o => vld buf (16 * Z.of_nat o)) offs) ->
  forall i, 0 <= i < 16 * Z.of_nat (length offs) ->
  stored (map (fun (v : vec) (l : Z) => g (v l)) us) i = g (buf i).
Proof.
  intros g buf us offs E (L & R) i Hi. unfold stored. rewrite map_length in L.
  assert (Q := Z.div_mod i 16 ltac:(lia)). assert (M := Z.mod_pos_bound i 16 ltac:(lia)).
  set (j := Z.to_nat (i / 16)).
  assert (J : (j < length us)%nat) by (unfold j; lia).
  assert (JZ : Z.of_nat j = i / 16) by (unfold j; rewrite Z2Nat.id; lia).
  rewrite nth_indep with (d' := (fun l => g (vdup 0 l)) : vec) by (rewrite map_length; exact J).
  etransitivity; [exact (f_equal (fun h : vec => h (i mod 16))
    (map_nth (fun (v : vec) (l : Z) => g (v l)) us (vdup 0) j))|]. cbv beta. f_equal.
  rewrite (R j (i mod 16) J M).
  rewrite nth_indep with (d' := vld buf (16 * Z.of_nat 0)) by (rewrite map_length; lia).
  rewrite (map_nth (fun o => vld buf (16 * Z.of_nat o)) offs 0%nat j).
  rewrite E, seq_nth by lia. unfold vld. f_equal. cbn [Nat.add]. lia.
Qed.
Lemma stored_same : forall buf (us : list vec) offs,
  offs = seq 0 (length offs) ->
  lanes_of us (map (fun o => vld buf (16 * Z.of_nat o)) offs) ->
  forall i, 0 <= i < 16 * Z.of_nat (length offs) -> stored us i = buf i.
Proof.
  intros buf us offs E L i Hi. rewrite <- (stored_each (fun x => x) buf us offs E L i Hi).
  rewrite map_id. reflexivity.
Qed.
Lemma stored_indices : forall nbit buf (us : list vec) offs, 1 <= nbit <= 8 ->
  offs = seq 0 (length offs) ->
  lanes_of us (map (fun o => vld buf (16 * Z.of_nat o)) offs) ->
  (forall i, 0 <= i < 16 * Z.of_nat (length offs) -> fits_unsigned nbit (buf i)) ->
  forall i, 0 <= i < 16 * Z.of_nat (length offs) -> stored (lut_indices nbit us) i = buf i.
Proof.
  intros nbit buf us offs W E L F i Hi. unfold lut_indices. destruct (nbit =? 8).
  - exact (stored_same buf us offs E L i Hi).
  - etransitivity;
      [exact (stored_each (fun x => Z.land x (Z.shiftl 1 nbit - 1)) buf us offs E L i Hi)|].
    rewrite Z.shiftl_1_l. replace (2 ^ nbit - 1) with (Z.ones nbit) by (rewrite Z.ones_equiv; lia).
    rewrite Z.land_ones by lia. apply Z.mod_small. exact (F i Hi).
Qed.
Lemma unsigned_below : forall nbit buf o n, (forall i, 0 <= i < n -> fits_unsigned nbit (buf i)) ->
  0 <= o -> o + 16 <= n -> below (2 ^ nbit) (vld buf o).
Proof. intros nbit buf o n F H1 H2 i Hi. apply F. lia. Qed.

Theorem C135_unsigned_32 : forall nbit m p buf, 1 <= nbit <= 8 ->
  (forall i, 0 <= i < 32 -> fits_unsigned nbit (buf i)) ->
  let m1 := vec_pack_32_uintx_values nbit m p (vld buf 0) (vld buf 16) in
  only_changes m m1 p (nbit * 4) /\
  forall m', same_bytes m1 m' p (nbit * 4) -> forall i, 0 <= i < 32 ->
  stored (vec_unpack_32_uintx_values nbit m' p) i = buf i /\
  stored (vec_unpack_32_lut_indices nbit m' p) i = buf i.
Proof.
  intros nbit m p buf W F m1.
  destruct (uintx_32 nbit m p (vld buf 0) (vld buf 16) W) as (O & R);
    [eapply unsigned_below; [exact F|lia|lia]..|].
  split; [exact O|]. intros m' A i Hi. specialize (R m' A). split.
  - exact (stored_same buf _ [0; 1]%nat eq_refl R i Hi).
  - exact (stored_indices nbit buf _ [0; 1]%nat W eq_refl R F i Hi).
Qed.
Theorem C135_unsigned_64 : forall nbit m p buf, 1 <= nbit <= 8 ->
  (forall i, 0 <= i < 64 -> fits_unsigned nbit (buf i)) ->
  let m1 := vec_pack_64_uintx_values nbit m p (vld buf 0) (vld buf 16) (vld buf 32) (vld buf 48) in
  only_changes m m1 p (nbit * 8) /\
  forall m', same_bytes m1 m' p (nbit * 8) -> forall i, 0 <= i < 64 ->
  stored (vec_unpack_64_uintx_values nbit m' p) i = buf i /\
  stored (vec_unpack_64_lut_indices nbit m' p) i = buf i.
Proof.
  intros nbit m p buf W F m1.
  destruct (uintx_64 nbit m p (vld buf 0) (vld buf 16) (vld buf 32) (vld buf 48) W) as (O & R);
    [eapply unsigned_below; [exact F|lia|lia]..|].
  split; [exact O|]. intros m' A i Hi. specialize (R m' A). split.
  - exact (stored_same buf _ [0; 1; 2; 3]%nat eq_refl R i Hi).
  - exact (stored_indices nbit buf _ [0; 1; 2; 3]%nat W eq_refl R F i Hi).
Qed.
(** With a table of 2^nbit entries (at most 4 bits) every index is replaced by
    its entry. *)
Theorem C135_unsigned_128_and_table : forall nbit m p buf, 1 <= nbit <= 8 ->
  (forall i, 0 <= i < 128 -> fits_unsigned nbit (buf i)) ->
  let m1 := pack_buffer_for_lut nbit m p buf in
  only_changes m m1 p (nbit * 16) /\
  forall m', same_bytes m1 m' p (nbit * 16) -> forall i, 0 <= i < 128 ->
  stored (vec_unpack_128_uintx_values nbit m' p) i = buf i /\
  stored (vec_unpack_128_lut_indices nbit m' p) i = buf i /\
  (nbit <= 4 -> forall lut,
     stored (vec_unpack_128_lowbit_values_with_lut nbit m' p lut) i = lut (buf i)).
Proof.
  intros nbit m p buf W F m1.
  destruct (uintx_128 nbit m p (vld buf 0) (vld buf 16) (vld buf 32) (vld buf 48)
    (vld buf 64) (vld buf 80) (vld buf 96) (vld buf 112) W) as (O & R);
    [eapply unsigned_below; [exact F|lia|lia]..|].
  split; [exact O|]. intros m' A i Hi. specialize (R m' A). split; [|split].
  - exact (stored_same buf _ [0; 1; 2; 3; 4; 5; 6; 7]%nat eq_refl R i Hi).
  - exact (stored_indices nbit buf _ [0; 1; 2; 3; 4; 5; 6; 7]%nat W eq_refl R F i Hi).
  - intros N lut. unfold vec_unpack_128_lowbit_values_with_lut.
    etransitivity; [exact (stored_each (fun x => if x <? 16 then lut x else 0) buf _
      [0; 1; 2; 3; 4; 5; 6; 7]%nat eq_refl R i Hi)|].
    assert (B := F i Hi). unfold fits_unsigned in B.
    assert (2 ^ nbit <= 2 ^ 4) by (apply Z.pow_le_mono_r; lia).
    change (2 ^ 4) with 16 in H. replace (buf i <? 16) with true by (symmetry; lia). reflexivity.
Qed.

(** With more than 4 bits the table look-up drops the entries past 15. *)
Theorem C135_table_of_more_than_16_refuted :
  exists buf lut, (forall i, 0 <= i < 128 -> fits_unsigned 5 (buf i)) /\
  stored (vec_unpack_128_lowbit_values_with_lut 5 (pack_buffer_for_lut 5 (fun _ => 0) 0 buf) 0 lut) 0
  <> lut (buf 0).
Proof.
  exists (fun i => (i + 16) mod 32), (fun x => x + 1). split.
  - intros i Hi. unfold fits_unsigned. change (2 ^ 5) with 32. apply Z.mod_pos_bound. lia.
  - vm_compute. discriminate.
Qed.

Definition buf135 (i : Z) : Z := (i * 7 + 3) mod 128.
Lemma C135_hypotheses : forall i, 0 <= i < 128 -> fits_unsigned 7 (buf135 i).
Proof. intros i Hi. unfold fits_unsigned, buf135. change (2 ^ 7) with 128. apply Z.mod_pos_bound. lia. Qed.

(** ** C136: the interleaving of the columns *)
(** The packed array consists of [sr] sections; section s holds, for every
    column j, the kr/sr values of the column that start at s * (kr/sr). *)
Theorem C136_interleaving : forall nr kr sr packed values,
  0 < nr -> 0 < sr -> 0 < kr -> kr mod sr = 0 ->
  let q := kr / sr in
  (forall s j t, 0 <= s < sr -> 0 <= j < nr -> 0 <= t < q ->
     pack_values packed values nr kr sr ((s * nr + j) * q + t) = values (j * kr + s * q + t)) /\
  (forall a, ~ (0 <= a < nr * kr) -> pack_values packed values nr kr sr a = packed a).
Proof.
  intros nr kr sr packed values Nr Sr Kr D q. split.
  - intros s j t. apply pack_values_at; assumption.
  - intros a N. destruct (pack_values_fills nr kr sr Nr Sr Kr D packed values a) as [(H & _)|(_ & H)].
    + contradiction.
    + exact H.
Qed.
Theorem C136_interleaving_is_undone : forall nr kr sr p0 v0 values pk,
  0 < nr -> 0 < sr -> 0 < kr -> kr mod sr = 0 ->
  (forall i, 0 <= i < nr * kr -> pk i = pack_values p0 values nr kr sr i) ->
  (forall a, 0 <= a < nr * kr -> unpack_values v0 pk nr kr sr a = values a) /\
  (forall a, ~ (0 <= a < nr * kr) -> unpack_values v0 pk nr kr sr a = v0 a).
Proof.
  intros nr kr sr p0 v0 values pk Nr Sr Kr D H. split.
  - exact (values_round nr kr sr Nr Sr Kr D p0 v0 values pk H).
  - intros a N. destruct (unpack_values_fills nr kr sr Nr Sr Kr D v0 pk values) with (x := a) as [(X & _)|(_ & X)].
    + intros s j t Hs Hj Ht. rewrite H by (apply in_packed; assumption).
      apply pack_values_at; assumption.
    + contradiction.
    + exact X.
Qed.
(** When sr does not divide kr (only an assert forbids it) values are lost. *)
Theorem C136_uneven_sections_refuted :
  exists values, unpack_values (fun _ => 0) (pack_values (fun _ => 0) values 2 3 2) 2 3 2 2 <> values 2.
Proof. exists (fun _ => 9). vm_compute. discriminate. Qed.
Lemma C136_hypotheses : 0 < 8 /\ 0 < 2 /\ 0 < 16 /\ 16 mod 2 = 0.
Proof. repeat split; lia. Qed.
Example C136_example :
  map (pack_values (fun _ => 0) (fun i => i) 2 4 2) [0; 1; 2; 3; 4; 5; 6; 7] = [0; 1; 4; 5; 2; 3; 6; 7].
Proof. vm_compute. reflexivity. Qed.

(** ** C137: pack_weights / unpack_weights *)
(** What the callers (and the asserts) guarantee about the parameters. *)
Definition kernel_shape (nbit nr kr sr k group_size : Z) : Prop :=
  1 <= nbit <= 8 /\ 0 < nr /\ 0 < kr /\ 0 < sr /\ kr mod sr = 0 /\
  (kr * nr = 32 \/ kr * nr = 64 \/ kr * nr = 128) /\
  0 < group_size /\ 0 < k /\ k mod group_size = 0 /\ group_size mod kr = 0 /\ k mod 8 = 0.
Definition weight_data (nbit n k group_size : Z) (weights scales : Z -> Z)
    (zeros bias : option (Z -> Z)) : Prop :=
  (forall i, 0 <= i < n * k -> fits nbit (weights i)) /\
  (forall i, 0 <= i < n * (k / group_size) -> word (scales i)) /\
  (forall z, zeros = Some z -> forall i, 0 <= i < n * (k / group_size) -> fits 8 (z i)) /\
  (forall b, bias = Some b -> forall i, 0 <= i < n -> word (b i)).

(** The output array holds [v] on [0, len) and is as before elsewhere. *)
Definition filled (before after : Z -> Z) (len : Z) (v : Z -> Z) : Prop :=
  (forall i, 0 <= i < len -> after i = v i) /\ (forall i, ~ (0 <= i < len) -> after i = before i).
Definition filled_if (before after : Z -> Z) (len : Z) (v : option (Z -> Z)) : Prop :=
  match v with Some v => filled before after len v | None => forall i, after i = before i end.

Lemma written_tiles : forall nbit nr kr sr n k group_size weights scales zeros bias m packed,
  kernel_shape nbit nr kr sr k group_size -> 0 <= n ->
  weight_data nbit n k group_size weights scales zeros bias ->
  let tile := nr * packed_weights_size_per_n k group_size nbit (given zeros) (given bias) in
  let size := packed_weights_size n k group_size nbit (given zeros) (given bias) nr in
  let m1 := pack_weights nbit nr kr sr n k group_size m packed weights scales zeros bias in
  only_changes m m1 packed size /\
  forall m', same_bytes m1 m' packed size -> forall t, 0 <= t < rounds n nr ->
    tile_ok nbit nr kr sr n k group_size weights scales zeros bias (t * nr) m' (packed + t * tile).
Proof.
  intros nbit nr kr sr n k group_size weights scales zeros bias m packed
    (W & Nr & Kr & Sr & D & Count & Gs & K & Gk & Gr & K8) N (Fw & Fs & Fz & Fb) tile size m1.
  destruct (weights_written nbit nr kr sr n k group_size W Nr Kr Sr D Count Gs Gk Gr K
    weights scales zeros bias Fw Fs Fb N m packed) as (_ & O & R).
  rewrite (tile_size nbit nr kr k group_size Kr Count Gs Gk Gr K8 zeros bias) in O, R.
  replace (rounds n nr * (nr * packed_weights_size_per_n k group_size nbit (given zeros) (given bias)))
    with size in O, R by (unfold size, packed_weights_size, rounds; ring).
  split; [exact O|]. intros m' A t Ht.
  assert (X := R m' A t Ht). exact X.
Qed.

Theorem C137_weights_come_back :
  forall nbit nr kr sr n k group_size weights scales zeros bias m packed out,
  kernel_shape nbit nr kr sr k group_size -> 0 <= n ->
  weight_data nbit n k group_size weights scales zeros bias ->
  let size := packed_weights_size n k group_size nbit (given zeros) (given bias) nr in
  let m1 := pack_weights nbit nr kr sr n k group_size m packed weights scales zeros bias in
  only_changes m m1 packed size /\
  forall m', same_bytes m1 m' packed size ->
  let o := unpack_weights nbit nr kr sr n k group_size m' packed (given zeros) (given bias) out in
  filled (u_qvals out) (u_qvals o) (n * k) weights /\
  filled (u_scales out) (u_scales o) (n * (k / group_size)) scales /\
  filled_if (u_zeros out) (u_zeros o) (n * (k / group_size)) zeros /\
  filled_if (u_bias out) (u_bias o) n bias.
Proof.
  intros nbit nr kr sr n k group_size weights scales zeros bias m packed out S N Dt size m1.
  destruct (written_tiles nbit nr kr sr n k group_size weights scales zeros bias m packed S N Dt)
    as (O & R). fold size m1 in O, R. split; [exact O|]. intros m' A o.
  destruct S as (W & Nr & Kr & Sr & D & Count & Gs & K & Gk & Gr & K8). destruct Dt as (Fw & Fs & Fz & Fb).
  assert (TS := tile_size nbit nr kr k group_size Kr Count Gs Gk Gr K8 zeros bias).
  assert (F : ofills (target weights scales zeros bias) out o (whole_set n k group_size zeros bias)).
  { apply (weights_read nbit nr kr sr n k group_size Nr Kr Gs Gk Gr K weights scales zeros bias m' Fz TS
      packed out N). rewrite TS. exact (R m' A). }
  clearbody o. clear - F.
  assert (G : forall (a b v : Z -> Z) len, fills a b (fun x => 0 <= x < len) v -> filled a b len v).
  { intros a b v len H. split; intros i Hi; destruct (H i) as [(X & Y)|(X & Y)];
      first [exact Y | contradiction]. }
  split; [|split; [|split]].
  - apply G. exact (F Fq).
  - apply G. exact (F Fs).
  - assert (Z := F Fz). cbn [get whole_set target] in Z. destruct zeros as [z|]; cbn [given filled_if] in *.
    + apply G. eapply fills_iff; [exact Z|]. intros x. cbn [whole_set given]. tauto.
    + intros i. destruct (Z i) as [((X & _) & _)|(_ & X)]; [discriminate|exact X].
  - assert (Z := F Fb). cbn [get whole_set target] in Z. destruct bias as [b|]; cbn [given filled_if] in *.
    + apply G. eapply fills_iff; [exact Z|]. intros x. cbn [whole_set given]. tauto.
    + intros i. destruct (Z i) as [((X & _) & _)|(_ & X)]; [discriminate|exact X].
Qed.

(** The advertised size is too small when k is not a multiple of 8 (nothing
    checks this): with 4-bit weights, 8 columns of k = 4 values and one group
    packed_weights_size is 64, but the packing writes 80 bytes. *)
Theorem C137_odd_row_length_refuted :
  let n := 8 in let k := 4 in
  let size := packed_weights_size n k 4 4 false false 8 in
  exists weights scales m,
  (forall i, 0 <= i < n * k -> fits 4 (weights i)) /\
  ~ only_changes m (pack_weights 4 8 4 1 n k 4 m 0 weights scales None None) 0 size.
Proof.
  cbv zeta. exists (fun _ => 0), (fun _ => 0), (fun _ => 1). split.
  - intros i _. unfold fits. change (2 ^ (4 - 1)) with 8. lia.
  - intros O. specialize (O 64). revert O. vm_compute. intros O.
    assert (X : 0 = 1) by (apply O; intros (_ & H); discriminate H). discriminate.
Qed.

Lemma C137_hypotheses :
  kernel_shape 4 8 16 2 64 32 /\
  weight_data 4 11 64 32 (fun i => i mod 16 - 8) (fun i => i) (Some (fun i => i mod 5 - 2)) (Some (fun i => 3 * i)).
Proof.
  split.
  - unfold kernel_shape. repeat split; try lia; try reflexivity.
  - unfold weight_data. split; [|split; [|split]].
    + intros i Hi. unfold fits. change (2 ^ (4 - 1)) with 8.
      assert (M := Z.mod_pos_bound i 16 ltac:(lia)). lia.
    + intros i Hi. unfold word. change (64 / 32) with 2 in Hi. cbv beta. change (2 ^ 32) with 4294967296. lia.
    + intros z [= <-] i Hi. unfold fits. change (2 ^ (8 - 1)) with 128.
      assert (M := Z.mod_pos_bound i 5 ltac:(lia)). lia.
    + intros b E i Hi. assert (Eb : b i = 3 * i) by (injection E; intros <-; reflexivity).
      rewrite Eb. unfold word. change (2 ^ 32) with 4294967296. lia.
Qed.

(** ** C138: where the kernels find sums, scales, zeros and bias *)
(** Bytes of one group of nr columns, and the start of a group. *)
Definition group_bytes (nbit nr group_size : Z) (has_zeros : bool) : Z :=
  nbit * nr * group_size / 8 + nr * 4 + nr * 4 + (if has_zeros then nr * 4 else 0).
Definition tile_bytes (nbit nr k group_size : Z) (has_zeros has_bias : bool) : Z :=
  k / group_size * group_bytes nbit nr group_size has_zeros + (if has_bias then nr * 4 else 0).

Theorem C138_sums_and_scales_in_place :
  forall nbit nr kr sr n k group_size weights scales zeros bias m packed t j g,
  kernel_shape nbit nr kr sr k group_size -> 0 <= n ->
  weight_data nbit n k group_size weights scales zeros bias ->
  let m1 := pack_weights nbit nr kr sr n k group_size m packed weights scales zeros bias in
  let column := t * nr + j in
  let tile := packed + t * tile_bytes nbit nr k group_size (given zeros) (given bias) in
  let tail := tile + g * group_bytes nbit nr group_size (given zeros) + nbit * nr * group_size / 8 in
  0 <= t -> 0 <= j < nr -> 0 <= g < k / group_size -> column < n ->
  load32 m1 (tail + j * 4) = scales (column * (k / group_size) + g) /\
  load32 m1 (tail + nr * 4 + j * 4) =
    pattern32 (sum_below (Z.to_nat group_size) (fun i => weights (column * k + g * group_size + i))) /\
  (forall z, zeros = Some z ->
     load32 m1 (tail + nr * 4 + nr * 4 + j * 4) = pattern32 (z (column * (k / group_size) + g))) /\
  (forall b, bias = Some b ->
     load32 m1 (tile + k / group_size * group_bytes nbit nr group_size (given zeros) + j * 4) = b column).
Proof.
  intros nbit nr kr sr n k group_size weights scales zeros bias m packed t j g S N Dt m1 column tile tail
    Ht Hj Hg Hn.
  destruct (written_tiles nbit nr kr sr n k group_size weights scales zeros bias m packed S N Dt)
    as (_ & R). fold m1 in R.
  destruct S as (W & Nr & Kr & Sr & D & Count & Gs & K & Gk & Gr & K8).
  assert (TS := tile_size nbit nr kr k group_size Kr Count Gs Gk Gr K8 zeros bias).
  specialize (R m1 (fun a _ => eq_refl) t).
  assert (C8 : nbit * nr * kr / 8 * 8 = nbit * nr * kr).
  { replace (nbit * nr * kr) with (nbit * (kr * nr)) by ring.
    clear - Count. destruct Count as [->|[->| ->]]; Z.to_euclidean_division_equations; lia. }
  assert (EG := Z.div_mod group_size kr ltac:(lia)). rewrite Gr, Z.add_0_r in EG.
  assert (CG : nbit * nr * group_size / 8 = group_size / kr * (nbit * nr * kr / 8)).
  { rewrite EG at 1. symmetry. apply Z.div_unique_exact; [lia|].
    transitivity (group_size / kr * (nbit * nr * kr / 8 * 8)); [rewrite C8; ring|ring]. }
  assert (GB : group_bytes nbit nr group_size (given zeros) =
    group_size / kr * (nbit * nr * kr / 8) + (nr * 4 + (nr * 4 + (if given zeros then nr * 4 else 0)))).
  { unfold group_bytes. rewrite CG. ring. }
  assert (TB : tile_bytes nbit nr k group_size (given zeros) (given bias) =
    nr * packed_weights_size_per_n k group_size nbit (given zeros) (given bias)).
  { rewrite <- TS. unfold tile_bytes. rewrite GB. reflexivity. }
  rewrite <- TB in R. fold tile in R.
  destruct R as (G & B).
  { split; [exact Ht|]. assert (X : t + 1 <= rounds n nr); [|clear - X; lia].
    unfold rounds. apply Z.div_le_lower_bound; [exact Nr|]. unfold column in Hn. clear - Hn Hj. nia. }
  destruct (G g Hg) as (_ & S1 & S2 & S3). rewrite <- GB in S1, S2, S3, B. rewrite <- CG in S1, S2, S3.
  fold tail in S1, S2, S3.
  assert (V : (t * nr + j <? n) = true) by (unfold column in Hn; clear - Hn; lia).
  split; [|split; [|split]].
  - rewrite S1 by exact Hj. unfold scale_at. rewrite V. reflexivity.
  - rewrite S2 by exact Hj. f_equal. apply sum_below_ext. intros i Hi. unfold weight_at. rewrite V.
    f_equal. unfold column. ring.
  - intros z Hz. rewrite (S3 z Hz) by exact Hj. unfold zero_at. rewrite V. reflexivity.
  - intros b Hb. rewrite (B b Hb) by exact Hj. unfold bias_at. rewrite V. reflexivity.
Qed.

Example C138_example :
  let m1 := pack_weights 4 8 16 2 11 64 32 (fun _ => 0) 0 (fun i => i mod 16 - 8) (fun i => i)
    (Some (fun i => i mod 5 - 2)) (Some (fun i => 3 * i)) in
  signed32 (load32 m1 (tile_bytes 4 8 64 32 true true + 4 * 8 * 32 / 8 + 8 * 4 + 2 * 4)) = -16.
Proof. vm_compute. reflexivity. Qed.

Print Assumptions C134_packed_values_come_back.
Print Assumptions C134_packing_is_injective.
Print Assumptions C135_unsigned_32.
Print Assumptions C135_unsigned_64.
Print Assumptions C135_unsigned_128_and_table.
Print Assumptions C135_table_of_more_than_16_refuted.
Print Assumptions C136_interleaving.
Print Assumptions C136_interleaving_is_undone.
Print Assumptions C136_uneven_sections_refuted.
Print Assumptions C137_weights_come_back.
Print Assumptions C137_odd_row_length_refuted.
Print Assumptions C138_sums_and_scales_in_place.
