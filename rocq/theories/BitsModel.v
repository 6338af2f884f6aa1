(** Bitspack: the 1-8 bit weight packing of the ARM backend.

    Models /repo/mllm/backends/cpu/kernels/arm/quantize/bitspack/
      u1.hpp .. u7.hpp       (packing of bytes holding small unsigned values)
      ux.hpp                 (dispatch on the width, signed values)
      ux_packing.hpp         (pack_values / unpack_values)
      bitspack.hpp:157-256, 271-455, 457-556  (pack_weights / unpack_weights)
      bitspack.cpp:76-90     (compute_sum)

    Simplifications:
    - memory is a total map from addresses to byte values in [0,256); an out of
      bounds access is not an error of the model, so every theorem states which
      addresses a packing changes and which ones an unpacking depends on;
    - a NEON register is a map from lanes to values: byte lanes hold 0..255,
      [int8x16_t] lanes hold -128..127; an 8-lane register uses lanes 0..7;
    - a [float] is the 32-bit pattern it is stored as (0..2^32-1), little-endian;
    - template parameters are ordinary arguments, [int] arithmetic is unbounded,
      and [assert] (compiled out in release builds) is not executed: what the
      asserts require appears as hypotheses of the theorems;
    - the look-up-table flavour of pack_weights is not modelled beyond
      [pack_buffer_for_lut] and [vec_unpack_128_lowbit_values_with_lut]. *)
From Verif Require Import Base.
Open Scope Z_scope.

(** ** Bytes, registers, memory *)

(** [uint8_t] conversion. *)
Definition u8 (x : Z) : Z := x mod 256.
(** [int8_t] conversion (two's complement), also vreinterpretq_s8_u8. *)
Definition s8 (x : Z) : Z := (x + 128) mod 256 - 128.

Definition mem := Z -> Z.
Definition vec := Z -> Z.

(** A sequence of stores into consecutive bytes ([vst1_u8] is [vst 8],
    [vst1q_u8] is [vst 16], a byte store is [vst 1]). *)
Definition vst (lanes : Z) (m : mem) (p : Z) (v : vec) : mem :=
  fun a => if (p <=? a) && (a <? p + lanes) then v (a - p) else m a.
Definition vst1 := vst 8.
Definition vst1q := vst 16.
Definition put (m : mem) (p : Z) (b : Z) : mem := vst 1 m p (fun _ => b).
(** [vld1_u8], [vld1q_u8] (and their int8 versions on int8 arrays). *)
Definition vld (m : mem) (p : Z) : vec := fun i => m (p + i).

Definition vdup (x : Z) : vec := fun _ => x.
Definition vand (a b : vec) : vec := fun i => Z.land (a i) (b i).
Definition vorr (a b : vec) : vec := fun i => Z.lor (a i) (b i).
Definition vshl_n (a : vec) (n : Z) : vec := fun i => u8 (Z.shiftl (a i) n).
Definition vshr_n (a : vec) (n : Z) : vec := fun i => Z.shiftr (a i) n.
(** Shift left / right and insert: the bits of [a] not covered by the shifted
    [b] are kept. *)
Definition vsli_n (a b : vec) (n : Z) : vec :=
  fun i => Z.lor (Z.land (a i) (2 ^ n - 1)) (u8 (Z.shiftl (b i) n)).
Definition vsri_n (a b : vec) (n : Z) : vec :=
  fun i => Z.lor (Z.land (a i) (255 - Z.shiftr 255 n)) (Z.shiftr (b i) n).
Definition vtst (a b : vec) : vec :=
  fun i => if Z.land (a i) (b i) =? 0 then 0 else 255.
(** [vshl_u8]: a negative count shifts right. *)
Definition vshl (a s : vec) : vec :=
  fun i => if 0 <=? s i then u8 (Z.shiftl (a i) (s i)) else Z.shiftr (a i) (- s i).
Definition vaddv8 (a : vec) : Z := u8 (a 0 + a 1 + a 2 + a 3 + a 4 + a 5 + a 6 + a 7).
Definition vget_low (v : vec) : vec := fun i => v i.
Definition vget_high (v : vec) : vec := fun i => v (i + 8).
Definition vcombine (a b : vec) : vec := fun i => if i <? 8 then a i else b (i - 8).
(** An array written element by element. *)
Definition lanes (l : list Z) : vec := fun i => nth (Z.to_nat i) l 0.
(** Two registers stored side by side in a local array. *)
Definition cat16 (a b : vec) : vec := fun i => if i <? 16 then a i else b (i - 16).
(** Four 8-byte results stored side by side in a local array. *)
Definition cat8 (a b c d : vec) : vec :=
  fun i => if i <? 8 then a i else if i <? 16 then b (i - 8)
           else if i <? 24 then c (i - 16) else d (i - 24).
Definition from (v : vec) (o : Z) : vec := fun i => v (o + i).

(** ** u1.hpp *)

(** u1.hpp:23-29 *)
Definition pack_8_uint1_values (m : mem) (packed : Z) (unpacked : vec) : mem :=
  put m packed
    (fold_left (fun b i => u8 (Z.lor b (Z.shiftl (unpacked i) (7 - i))))
       [0; 1; 2; 3; 4; 5; 6; 7] 0).
(** u1.hpp:31-36 *)
Definition unpack_8_uint1_values (m : mem) (packed : Z) : vec :=
  fun i => Z.land (Z.shiftr (m packed) (7 - i)) 1.
(** u1.hpp:43-58 *)
Definition vec_pack_64_uint1_values (m : mem) (packed : Z) (u0 u1 u2 u3 : vec) : mem :=
  let v := vshl_n u0 3 in
  let v := vorr v (vshl_n u1 2) in
  let v := vorr v (vshl_n u2 1) in
  let v := vorr v u3 in
  let low := vget_low v in
  let high := vget_high v in
  vst1 m packed (vsli_n low high 4).
(** u1.hpp:60-75 *)
Definition vec_unpack_64_uint1_values (m : mem) (packed : Z) : list vec :=
  let v := vld m packed in
  let low := vand v (vdup 15) in
  let high := vshr_n v 4 in
  let combined := vcombine low high in
  [ vshr_n (vand combined (vdup 8)) 3; vshr_n (vand combined (vdup 4)) 2;
    vshr_n (vand combined (vdup 2)) 1; vand combined (vdup 1) ].
(** u1.hpp:82-99 *)
Definition vec_pack_128_uint1_values (m : mem) (packed : Z)
    (u0 u1 u2 u3 u4 u5 u6 u7 : vec) : mem :=
  let v := vshl_n u0 7 in
  let v := vorr v (vshl_n u1 6) in
  let v := vorr v (vshl_n u2 5) in
  let v := vorr v (vshl_n u3 4) in
  let v := vorr v (vshl_n u4 3) in
  let v := vorr v (vshl_n u5 2) in
  let v := vorr v (vshl_n u6 1) in
  let v := vorr v u7 in
  vst1q m packed v.
(** u1.hpp:101-116 *)
Definition vec_unpack_128_uint1_values (m : mem) (packed : Z) : list vec :=
  let v := vld m packed in
  [ vand (vshr_n v 7) (vdup 1); vand (vshr_n v 6) (vdup 1);
    vand (vshr_n v 5) (vdup 1); vand (vshr_n v 4) (vdup 1);
    vand (vshr_n v 3) (vdup 1); vand (vshr_n v 2) (vdup 1);
    vand (vshr_n v 1) (vdup 1); vand v (vdup 1) ].

(** ** u2.hpp *)

(** u2.hpp:39-54; vec_pack_64_uint2_values (76-92) is the same on 16 lanes. *)
Definition vec_pack_uint2_values (m : mem) (packed : Z) (n : Z) (u0 u1 u2 u3 : vec) : mem :=
  let v := vshl_n u0 6 in
  let v := vorr v (vshl_n u1 4) in
  let v := vorr v (vshl_n u2 2) in
  let v := vorr v u3 in
  vst n m packed v.
Definition vec_pack_32_uint2_values m packed := vec_pack_uint2_values m packed 8.
Definition vec_pack_64_uint2_values m packed := vec_pack_uint2_values m packed 16.
(** u2.hpp:56-74 and 94-112: the same operations on 8 and on 16 lanes. *)
Definition vec_unpack_uint2_values (m : mem) (packed : Z) : list vec :=
  let v := vld m packed in
  [ vshr_n (vand v (vdup 192)) 6; vshr_n (vand v (vdup 48)) 4;
    vshr_n (vand v (vdup 12)) 2; vand v (vdup 3) ].

(** ** u3.hpp *)

(** u3.hpp:23-45 *)
Definition pack_8_uint3_values (m : mem) (packed : Z) (u : vec) : mem :=
  let m := put m packed
    (u8 (Z.lor (Z.lor (Z.shiftl (Z.land (u 6) 3) 6) (Z.shiftl (Z.land (u 0) 7) 3)) (u 1))) in
  let m := put m (packed + 1)
    (u8 (Z.lor (Z.lor (Z.shiftl (Z.land (u 7) 3) 6) (Z.shiftl (Z.land (u 2) 7) 3)) (u 3))) in
  put m (packed + 2)
    (u8 (Z.lor (Z.lor (Z.lor (Z.shiftl (Z.land (u 6) 4) 5) (Z.shiftl (Z.land (u 7) 4) 4))
                  (Z.shiftl (Z.land (u 4) 7) 3)) (u 5))).
(** u3.hpp:47-68 *)
Definition unpack_8_uint3_values (m : mem) (packed : Z) : vec :=
  let b0 := m packed in let b1 := m (packed + 1) in let b2 := m (packed + 2) in
  lanes [ Z.land (Z.shiftr b0 3) 7; Z.land b0 7;
          Z.land (Z.shiftr b1 3) 7; Z.land b1 7;
          Z.land (Z.shiftr b2 3) 7; Z.land b2 7;
          Z.lor (Z.shiftr b0 6) (Z.land (Z.shiftr b2 5) 4);
          Z.lor (Z.shiftr b1 6) (Z.land (Z.shiftr b2 4) 4) ].
(** u3.hpp:70-108 *)
Definition vec_pack_64_uint3_values (m : mem) (packed : Z) (u0 u1 u2 u3 : vec) : mem :=
  let b := vshl_n (vand (vget_low u3) (vdup 3)) 6 in
  let b := vorr b (vshl_n (vand (vget_low u0) (vdup 7)) 3) in
  let b := vorr b (vget_high u0) in
  let m := vst1 m packed b in
  let b := vshl_n (vand (vget_high u3) (vdup 3)) 6 in
  let b := vorr b (vshl_n (vand (vget_low u1) (vdup 7)) 3) in
  let b := vorr b (vget_high u1) in
  let m := vst1 m (packed + 8) b in
  let b := vshl_n (vand (vget_low u3) (vdup 4)) 5 in
  let b := vorr b (vshl_n (vand (vget_high u3) (vdup 4)) 4) in
  let b := vorr b (vshl_n (vand (vget_low u2) (vdup 7)) 3) in
  let b := vorr b (vget_high u2) in
  vst1 m (packed + 16) b.
(** u3.hpp:110-163 *)
Definition vec_unpack_64_uint3_values (m : mem) (packed : Z) : list vec :=
  let b0 := vld m packed in
  let b1 := vld m (packed + 8) in
  let b2 := vld m (packed + 16) in
  let mask := vdup 7 in
  let t0 := vand (vshr_n b0 3) mask in
  let t1 := vand b0 mask in
  let u0 := vcombine t0 t1 in
  let t0 := vand (vshr_n b1 3) mask in
  let t1 := vand b1 mask in
  let u1 := vcombine t0 t1 in
  let t0 := vand (vshr_n b2 3) mask in
  let t1 := vand b2 mask in
  let u2 := vcombine t0 t1 in
  let mask := vdup 4 in
  let t0 := vshr_n b0 6 in
  let t0 := vorr t0 (vand (vshr_n b2 5) mask) in
  let t1 := vshr_n b1 6 in
  let t1 := vorr t1 (vand (vshr_n b2 4) mask) in
  let u3 := vcombine t0 t1 in
  [u0; u1; u2; u3].
(** u3.hpp:165-203 *)
Definition vec_pack_128_uint3_values (m : mem) (packed : Z)
    (u0 u1 u2 u3 u4 u5 u6 u7 : vec) : mem :=
  let b := vshl_n (vand u6 (vdup 3)) 6 in
  let b := vorr b (vshl_n (vand u0 (vdup 7)) 3) in
  let b := vorr b u1 in
  let m := vst1q m packed b in
  let b := vshl_n (vand u7 (vdup 3)) 6 in
  let b := vorr b (vshl_n (vand u2 (vdup 7)) 3) in
  let b := vorr b u3 in
  let m := vst1q m (packed + 16) b in
  let b := vshl_n (vand u6 (vdup 4)) 5 in
  let b := vorr b (vshl_n (vand u7 (vdup 4)) 4) in
  let b := vorr b (vshl_n (vand u4 (vdup 7)) 3) in
  let b := vorr b u5 in
  vst1q m (packed + 32) b.
(** u3.hpp:205-250 *)
Definition vec_unpack_128_uint3_values (m : mem) (packed : Z) : list vec :=
  let b0 := vld m packed in
  let b1 := vld m (packed + 16) in
  let b2 := vld m (packed + 32) in
  let mask := vdup 7 in
  let u0 := vand (vshr_n b0 3) mask in
  let u1 := vand b0 mask in
  let u2 := vand (vshr_n b1 3) mask in
  let u3 := vand b1 mask in
  let u4 := vand (vshr_n b2 3) mask in
  let u5 := vand b2 mask in
  let mask := vdup 4 in
  let u6 := vshr_n b0 6 in
  let u6 := vorr u6 (vand (vshr_n b2 5) mask) in
  let u7 := vshr_n b1 6 in
  let u7 := vorr u7 (vand (vshr_n b2 4) mask) in
  [u0; u1; u2; u3; u4; u5; u6; u7].

(** ** u4.hpp *)

(** u4.hpp:46-51 *)
Definition vec_pack_32_uint4_values (m : mem) (packed : Z) (u0 u1 : vec) : mem :=
  let high := vshl_n u1 4 in
  let p := vorr u0 high in
  vst1q m packed p.
(** u4.hpp:53-57 *)
Definition vec_unpack_32_uint4_values (m : mem) (packed : Z) : list vec :=
  let p := vld m packed in
  [ vand p (vdup 15); vshr_n p 4 ].

(** ** u5.hpp *)

(** u5.hpp:23-35 *)
Definition pack_8_uint5_values (m : mem) (packed : Z) (u : vec) : mem :=
  let m := put m packed (u8 (Z.lor (u 0) (Z.shiftl (u 1) 5))) in
  let m := put m (packed + 1) (u8 (Z.lor (u 2) (Z.shiftl (u 3) 5))) in
  let m := put m (packed + 2) (u8 (Z.lor (u 4) (Z.shiftl (u 5) 5))) in
  let m := put m (packed + 3) (u8 (Z.lor (u 6) (Z.shiftl (u 7) 5))) in
  put m (packed + 4)
    (u8 (Z.lor (Z.lor (Z.lor (Z.shiftr (u 1) 3) (Z.shiftl (Z.shiftr (u 3) 3) 2))
                  (Z.shiftl (Z.shiftr (u 5) 3) 4)) (Z.shiftl (Z.shiftr (u 7) 3) 6))).
(** u5.hpp:37-60 *)
Definition unpack_8_uint5_values (m : mem) (packed : Z) : vec :=
  let p0 := m packed in let p1 := m (packed + 1) in let p2 := m (packed + 2) in
  let p3 := m (packed + 3) in let p4 := m (packed + 4) in
  lanes [ Z.land p0 31; u8 (Z.lor (Z.shiftr p0 5) (Z.shiftl (Z.land p4 3) 3));
          Z.land p1 31; u8 (Z.lor (Z.shiftr p1 5) (Z.shiftl (Z.land p4 12) 1));
          Z.land p2 31; Z.lor (Z.shiftr p2 5) (Z.shiftr (Z.land p4 48) 1);
          Z.land p3 31; Z.lor (Z.shiftr p3 5) (Z.shiftr (Z.land p4 192) 3) ].
(** u5.hpp:62-87 *)
Definition vec_pack_64_uint5_values (m : mem) (packed : Z) (u0 u1 u2 u3 : vec) : mem :=
  let p0 := vorr u0 (vshl_n u1 5) in
  let p1 := vorr u2 (vshl_n u3 5) in
  let p2 := vshr_n (vget_low u1) 3 in
  let p2 := vorr p2 (vshl_n (vshr_n (vget_high u1) 3) 2) in
  let p2 := vorr p2 (vshl_n (vshr_n (vget_low u3) 3) 4) in
  let p2 := vorr p2 (vshl_n (vshr_n (vget_high u3) 3) 6) in
  let m := vst1q m packed p0 in
  let m := vst1q m (packed + 16) p1 in
  vst1 m (packed + 32) p2.
(** u5.hpp:89-111 *)
Definition vec_unpack_64_uint5_values (m : mem) (packed : Z) : list vec :=
  let p0 := vld m packed in
  let p1 := vld m (packed + 16) in
  let p2 := vld m (packed + 32) in
  let u0 := vand p0 (vdup 31) in
  let u1 := vcombine (vshl_n (vand p2 (vdup 3)) 3) (vshl_n (vand p2 (vdup 12)) 1) in
  let u1 := vorr u1 (vshr_n p0 5) in
  let u2 := vand p1 (vdup 31) in
  let u3 := vcombine (vshr_n (vand p2 (vdup 48)) 1) (vshr_n (vand p2 (vdup 192)) 3) in
  let u3 := vorr u3 (vshr_n p1 5) in
  [u0; u1; u2; u3].
(** u5.hpp:113-145 *)
Definition vec_pack_128_uint5_values (m : mem) (packed : Z)
    (u0 u1 u2 u3 u4 u5 u6 u7 : vec) : mem :=
  let p0 := vorr u0 (vshl_n u1 5) in
  let p1 := vorr u2 (vshl_n u3 5) in
  let p2 := vorr u4 (vshl_n u5 5) in
  let p3 := vorr u6 (vshl_n u7 5) in
  let p4 := vshr_n u1 3 in
  let p4 := vorr p4 (vshl_n (vshr_n u3 3) 2) in
  let p4 := vorr p4 (vshl_n (vshr_n u5 3) 4) in
  let p4 := vorr p4 (vshl_n (vshr_n u7 3) 6) in
  let m := vst1q m packed p0 in
  let m := vst1q m (packed + 16) p1 in
  let m := vst1q m (packed + 32) p2 in
  let m := vst1q m (packed + 48) p3 in
  vst1q m (packed + 64) p4.
(** u5.hpp:147-176 *)
Definition vec_unpack_128_uint5_values (m : mem) (packed : Z) : list vec :=
  let p0 := vld m packed in
  let p1 := vld m (packed + 16) in
  let p2 := vld m (packed + 32) in
  let p3 := vld m (packed + 48) in
  let p4 := vld m (packed + 64) in
  [ vand p0 (vdup 31); vorr (vshr_n p0 5) (vshl_n (vand p4 (vdup 3)) 3);
    vand p1 (vdup 31); vorr (vshr_n p1 5) (vshl_n (vand p4 (vdup 12)) 1);
    vand p2 (vdup 31); vorr (vshr_n p2 5) (vshr_n (vand p4 (vdup 48)) 1);
    vand p3 (vdup 31); vorr (vshr_n p3 5) (vshr_n (vand p4 (vdup 192)) 3) ].

(** ** u6.hpp *)

(** u6.hpp:53-89 *)
Definition vec_pack_32_uint6_values (m : mem) (packed : Z) (u0 u1 : vec) : mem :=
  let r := vget_low u0 in
  let r := vorr r (vshl_n (vand (vget_high u1) (vdup 3)) 6) in
  let m := vst1 m packed r in
  let r := vget_high u0 in
  let r := vorr r (vshl_n (vand (vget_high u1) (vdup 12)) 4) in
  let m := vst1 m (packed + 8) r in
  let r := vget_low u1 in
  let r := vorr r (vshl_n (vand (vget_high u1) (vdup 48)) 2) in
  vst1 m (packed + 16) r.
(** u6.hpp:91-124 *)
Definition vec_unpack_32_uint6_values (m : mem) (packed : Z) : list vec :=
  let p0 := vld m packed in
  let p1 := vld m (packed + 8) in
  let p2 := vld m (packed + 16) in
  let u3 := vsri_n p2 p1 2 in
  let u3 := vsri_n u3 p0 4 in
  let u3 := vshr_n u3 2 in
  let mask := vdup 63 in
  [ vcombine (vand p0 mask) (vand p1 mask); vcombine (vand p2 mask) u3 ].
(** u6.hpp:126-155 *)
Definition vec_pack_64_uint6_values (m : mem) (packed : Z) (u0 u1 u2 u3 : vec) : mem :=
  let r := u0 in
  let r := vorr r (vshl_n (vand u3 (vdup 3)) 6) in
  let m := vst1q m packed r in
  let r := u1 in
  let r := vorr r (vshl_n (vand u3 (vdup 12)) 4) in
  let m := vst1q m (packed + 16) r in
  let r := u2 in
  let r := vorr r (vshl_n (vand u3 (vdup 48)) 2) in
  vst1q m (packed + 32) r.
(** u6.hpp:157-191 *)
Definition vec_unpack_64_uint6_values (m : mem) (packed : Z) : list vec :=
  let u0 := vld m packed in
  let u1 := vld m (packed + 16) in
  let u2 := vld m (packed + 32) in
  let u3 := vsri_n u2 u1 2 in
  let u3 := vsri_n u3 u0 4 in
  let u3 := vshr_n u3 2 in
  let mask := vdup 63 in
  [ vand u0 mask; vand u1 mask; vand u2 mask; u3 ].

(** ** u7.hpp *)

(** u7.hpp:23-55 *)
Definition pack_8_uint7_values (m : mem) (packed : Z) (u : vec) : mem :=
  let mask := lanes [1; 2; 4; 8; 16; 32; 64; 128] in
  let unpacked7 := vtst (vdup (u 7)) mask in
  let p := vsli_n u unpacked7 7 in
  let m := put m packed (p 0) in
  let m := put m (packed + 1) (p 1) in
  let m := put m (packed + 2) (p 2) in
  let m := put m (packed + 3) (p 3) in
  let m := put m (packed + 4) (p 4) in
  let m := put m (packed + 5) (p 5) in
  put m (packed + 6) (p 6).
(** u7.hpp:57-85 *)
Definition unpack_8_uint7_values (m : mem) (packed : Z) : vec :=
  let v := lanes [ m packed; m (packed + 1); m (packed + 2); m (packed + 3);
                   m (packed + 4); m (packed + 5); m (packed + 6); 0 ] in
  let shift := lanes [-7; -6; -5; -4; -3; -2; -1; 0] in
  let last := vaddv8 (vshl (vand v (vdup 128)) shift) in
  let v := vand v (vdup 127) in
  lanes [ v 0; v 1; v 2; v 3; v 4; v 5; v 6; last ].
(** u7.hpp:87-115 *)
Definition vec_pack_64_uint7_values (m : mem) (packed : Z) (u0 u1 u2 u3 : vec) : mem :=
  let last := vget_high u3 in
  let m := vst1 m packed (vsli_n (vget_low u0) last 7) in
  let m := vst1 m (packed + 8) (vsli_n (vget_high u0) (vshr_n last 1) 7) in
  let m := vst1 m (packed + 16) (vsli_n (vget_low u1) (vshr_n last 2) 7) in
  let m := vst1 m (packed + 24) (vsli_n (vget_high u1) (vshr_n last 3) 7) in
  let m := vst1 m (packed + 32) (vsli_n (vget_low u2) (vshr_n last 4) 7) in
  let m := vst1 m (packed + 40) (vsli_n (vget_high u2) (vshr_n last 5) 7) in
  vst1 m (packed + 48) (vsli_n (vget_low u3) (vshr_n last 6) 7).
(** u7.hpp:117-157 *)
Definition vec_unpack_64_uint7_values (m : mem) (packed : Z) : list vec :=
  let mask := vdup 127 in
  let last_low := vld m (packed + 48) in
  let last_high := vshr_n last_low 1 in
  let high := vld m (packed + 40) in
  let low := vld m (packed + 32) in
  let last_high := vsri_n last_high high 2 in
  let last_high := vsri_n last_high low 3 in
  let u2 := vcombine (vand low mask) (vand high mask) in
  let high := vld m (packed + 24) in
  let low := vld m (packed + 16) in
  let last_high := vsri_n last_high high 4 in
  let last_high := vsri_n last_high low 5 in
  let u1 := vcombine (vand low mask) (vand high mask) in
  let high := vld m (packed + 8) in
  let low := vld m packed in
  let last_high := vsri_n last_high high 6 in
  let last_high := vsri_n last_high low 7 in
  let u0 := vcombine (vand low mask) (vand high mask) in
  let u3 := vcombine (vand last_low mask) (vand last_high mask) in
  [u0; u1; u2; u3].
(** u7.hpp:159-187 *)
Definition vec_pack_128_uint7_values (m : mem) (packed : Z)
    (u0 u1 u2 u3 u4 u5 u6 u7 : vec) : mem :=
  let m := vst1q m packed (vsli_n u0 u7 7) in
  let m := vst1q m (packed + 16) (vsli_n u1 (vshr_n u7 1) 7) in
  let m := vst1q m (packed + 16 * 2) (vsli_n u2 (vshr_n u7 2) 7) in
  let m := vst1q m (packed + 16 * 3) (vsli_n u3 (vshr_n u7 3) 7) in
  let m := vst1q m (packed + 16 * 4) (vsli_n u4 (vshr_n u7 4) 7) in
  let m := vst1q m (packed + 16 * 5) (vsli_n u5 (vshr_n u7 5) 7) in
  vst1q m (packed + 16 * 6) (vsli_n u6 (vshr_n u7 6) 7).
(** u7.hpp:189-236.  As in the C++, unpacked7 is not masked: its top bit is the
    0 shifted in by the first [vshrq_n_u8]. *)
Definition vec_unpack_128_uint7_values (m : mem) (packed : Z) : list vec :=
  let mask := vdup 127 in
  let u6 := vld m (packed + 16 * 6) in
  let u7 := vshr_n u6 1 in
  let u6 := vand u6 mask in
  let u5 := vld m (packed + 16 * 5) in
  let u7 := vsri_n u7 u5 2 in
  let u5 := vand u5 mask in
  let u4 := vld m (packed + 16 * 4) in
  let u7 := vsri_n u7 u4 3 in
  let u4 := vand u4 mask in
  let u3 := vld m (packed + 16 * 3) in
  let u7 := vsri_n u7 u3 4 in
  let u3 := vand u3 mask in
  let u2 := vld m (packed + 16 * 2) in
  let u7 := vsri_n u7 u2 5 in
  let u2 := vand u2 mask in
  let u1 := vld m (packed + 16) in
  let u7 := vsri_n u7 u1 6 in
  let u1 := vand u1 mask in
  let u0 := vld m packed in
  let u7 := vsri_n u7 u0 7 in
  let u0 := vand u0 mask in
  [u0; u1; u2; u3; u4; u5; u6; u7].

(** ** ux.hpp: dispatch on the width *)

(** The four 8-value steps of ux.hpp:144-155 (and of cases 3, 5, 7). *)
Definition pack_by_8 (f : mem -> Z -> vec -> mem) (bytes : Z) (m : mem) (packed : Z)
    (u0 u1 : vec) : mem :=
  let buffer := cat16 u0 u1 in
  let m := f m packed buffer in
  let m := f m (packed + bytes) (from buffer 8) in
  let m := f m (packed + 2 * bytes) (from buffer 16) in
  f m (packed + 3 * bytes) (from buffer 24).
Definition unpack_by_8 (f : mem -> Z -> vec) (bytes : Z) (m : mem) (packed : Z) : list vec :=
  let buffer := cat8 (f m packed) (f m (packed + bytes)) (f m (packed + 2 * bytes))
                  (f m (packed + 3 * bytes)) in
  [ from buffer 0; from buffer 16 ].

(** ux.hpp:138-217 vec_pack_32_uintx_values *)
Definition vec_pack_32_uintx_values (nbit : Z) (m : mem) (packed : Z) (u0 u1 : vec) : mem :=
  match nbit with
  | 1 => pack_by_8 pack_8_uint1_values 1 m packed u0 u1
  | 2 => vec_pack_32_uint2_values m packed (vget_low u0) (vget_high u0) (vget_low u1) (vget_high u1)
  | 3 => pack_by_8 pack_8_uint3_values 3 m packed u0 u1
  | 4 => vec_pack_32_uint4_values m packed u0 u1
  | 5 => pack_by_8 pack_8_uint5_values 5 m packed u0 u1
  | 6 => vec_pack_32_uint6_values m packed u0 u1
  | 7 => pack_by_8 pack_8_uint7_values 7 m packed u0 u1
  | 8 => vst1q (vst1q m packed u0) (packed + 16) u1
  | _ => m
  end.
(** ux.hpp:731-795 vec_unpack_32_uintx_values *)
Definition vec_unpack_32_uintx_values (nbit : Z) (m : mem) (packed : Z) : list vec :=
  match nbit with
  | 1 => unpack_by_8 unpack_8_uint1_values 1 m packed
  | 2 => match vec_unpack_uint2_values m packed with
         | [a; b; c; d] => [vcombine a b; vcombine c d]
         | _ => []
         end
  | 3 => unpack_by_8 unpack_8_uint3_values 3 m packed
  | 4 => vec_unpack_32_uint4_values m packed
  | 5 => unpack_by_8 unpack_8_uint5_values 5 m packed
  | 6 => vec_unpack_32_uint6_values m packed
  | 7 => unpack_by_8 unpack_8_uint7_values 7 m packed
  | 8 => [ vld m packed; vld m (packed + 16) ]
  | _ => []
  end.
(** ux.hpp:333-364 vec_pack_64_uintx_values *)
Definition vec_pack_64_uintx_values (nbit : Z) (m : mem) (packed : Z) (u0 u1 u2 u3 : vec) : mem :=
  match nbit with
  | 1 => vec_pack_64_uint1_values m packed u0 u1 u2 u3
  | 2 => vec_pack_64_uint2_values m packed u0 u1 u2 u3
  | 3 => vec_pack_64_uint3_values m packed u0 u1 u2 u3
  | 4 => let m := vec_pack_32_uint4_values m packed u0 u1 in
         vec_pack_32_uint4_values m (packed + 16) u2 u3
  | 5 => vec_pack_64_uint5_values m packed u0 u1 u2 u3
  | 6 => vec_pack_64_uint6_values m packed u0 u1 u2 u3
  | 7 => vec_pack_64_uint7_values m packed u0 u1 u2 u3
  | 8 => let m := vst1q m packed u0 in
         let m := vst1q m (packed + 16) u1 in
         let m := vst1q m (packed + 32) u2 in
         vst1q m (packed + 48) u3
  | _ => m
  end.
(** ux.hpp:679-704 vec_unpack_64_uintx_values *)
Definition vec_unpack_64_uintx_values (nbit : Z) (m : mem) (packed : Z) : list vec :=
  match nbit with
  | 1 => vec_unpack_64_uint1_values m packed
  | 2 => vec_unpack_uint2_values m packed
  | 3 => vec_unpack_64_uint3_values m packed
  | 4 => vec_unpack_32_uint4_values m packed ++ vec_unpack_32_uint4_values m (packed + 16)
  | 5 => vec_unpack_64_uint5_values m packed
  | 6 => vec_unpack_64_uint6_values m packed
  | 7 => vec_unpack_64_uint7_values m packed
  | 8 => [ vld m packed; vld m (packed + 16); vld m (packed + 32); vld m (packed + 48) ]
  | _ => []
  end.
(** ux.hpp:408-455 vec_pack_128_uintx_values *)
Definition vec_pack_128_uintx_values (nbit : Z) (m : mem) (packed : Z)
    (u0 u1 u2 u3 u4 u5 u6 u7 : vec) : mem :=
  match nbit with
  | 1 => vec_pack_128_uint1_values m packed u0 u1 u2 u3 u4 u5 u6 u7
  | 2 => let m := vec_pack_64_uint2_values m packed u0 u1 u2 u3 in
         vec_pack_64_uint2_values m (packed + 16) u4 u5 u6 u7
  | 3 => vec_pack_128_uint3_values m packed u0 u1 u2 u3 u4 u5 u6 u7
  | 4 => let m := vec_pack_32_uint4_values m packed u0 u1 in
         let m := vec_pack_32_uint4_values m (packed + 16) u2 u3 in
         let m := vec_pack_32_uint4_values m (packed + 32) u4 u5 in
         vec_pack_32_uint4_values m (packed + 48) u6 u7
  | 5 => vec_pack_128_uint5_values m packed u0 u1 u2 u3 u4 u5 u6 u7
  | 6 => let m := vec_pack_64_uint6_values m packed u0 u1 u2 u3 in
         vec_pack_64_uint6_values m (packed + 48) u4 u5 u6 u7
  | 7 => vec_pack_128_uint7_values m packed u0 u1 u2 u3 u4 u5 u6 u7
  | 8 => let m := vst1q m packed u0 in
         let m := vst1q m (packed + 16) u1 in
         let m := vst1q m (packed + 32) u2 in
         let m := vst1q m (packed + 48) u3 in
         let m := vst1q m (packed + 64) u4 in
         let m := vst1q m (packed + 80) u5 in
         let m := vst1q m (packed + 96) u6 in
         vst1q m (packed + 112) u7
  | _ => m
  end.
(** ux.hpp:457-507 vec_unpack_128_uintx_values *)
Definition vec_unpack_128_uintx_values (nbit : Z) (m : mem) (packed : Z) : list vec :=
  match nbit with
  | 1 => vec_unpack_128_uint1_values m packed
  | 2 => vec_unpack_uint2_values m packed ++ vec_unpack_uint2_values m (packed + 16)
  | 3 => vec_unpack_128_uint3_values m packed
  | 4 => vec_unpack_32_uint4_values m packed ++ vec_unpack_32_uint4_values m (packed + 16)
         ++ vec_unpack_32_uint4_values m (packed + 32) ++ vec_unpack_32_uint4_values m (packed + 48)
  | 5 => vec_unpack_128_uint5_values m packed
  | 6 => vec_unpack_64_uint6_values m packed ++ vec_unpack_64_uint6_values m (packed + 48)
  | 7 => vec_unpack_128_uint7_values m packed
  | 8 => [ vld m packed; vld m (packed + 16); vld m (packed + 32); vld m (packed + 48);
           vld m (packed + 64); vld m (packed + 80); vld m (packed + 96); vld m (packed + 112) ]
  | _ => []
  end.

(** Signed values: ux.hpp:67-135, 291-331, 509-579.  For fewer than 8 bits
    every lane is shifted by 2^(nbit-1) and then packed by the same switch as
    in the uintx functions above; for 8 bits the lanes are stored as they are
    (the bodies of the two switches are the same, so the model calls the uintx
    function). *)
Definition shifted (nbit : Z) (v : vec) : vec :=
  if nbit <? 8 then fun i => u8 (s8 (v i + 2 ^ (nbit - 1))) else fun i => u8 (v i).
(** ux.hpp:281-287, 397-405, 637-649 (and vreinterpretq_s8_u8 for 8 bits). *)
Definition unshifted (nbit : Z) (v : vec) : vec :=
  if nbit <? 8 then fun i => s8 (s8 (v i) + - 2 ^ (nbit - 1)) else fun i => s8 (v i).

Definition vec_pack_32_lowbit_values (nbit : Z) (m : mem) (packed : Z) (u0 u1 : vec) : mem :=
  vec_pack_32_uintx_values nbit m packed (shifted nbit u0) (shifted nbit u1).
Definition vec_pack_64_lowbit_values (nbit : Z) (m : mem) (packed : Z) (u0 u1 u2 u3 : vec) : mem :=
  vec_pack_64_uintx_values nbit m packed (shifted nbit u0) (shifted nbit u1)
    (shifted nbit u2) (shifted nbit u3).
Definition vec_pack_128_lowbit_values (nbit : Z) (m : mem) (packed : Z)
    (u0 u1 u2 u3 u4 u5 u6 u7 : vec) : mem :=
  vec_pack_128_uintx_values nbit m packed (shifted nbit u0) (shifted nbit u1)
    (shifted nbit u2) (shifted nbit u3) (shifted nbit u4) (shifted nbit u5)
    (shifted nbit u6) (shifted nbit u7).
(** ux.hpp:219-289, 366-406, 581-650 *)
Definition vec_unpack_32_lowbit_values (nbit : Z) (m : mem) (packed : Z) : list vec :=
  map (unshifted nbit) (vec_unpack_32_uintx_values nbit m packed).
Definition vec_unpack_64_lowbit_values (nbit : Z) (m : mem) (packed : Z) : list vec :=
  map (unshifted nbit) (vec_unpack_64_uintx_values nbit m packed).
Definition vec_unpack_128_lowbit_values (nbit : Z) (m : mem) (packed : Z) : list vec :=
  map (unshifted nbit) (vec_unpack_128_uintx_values nbit m packed).

(** ux.hpp:706-729, 797-818, 820-858: the unpacked indices masked to the width. *)
Definition lut_indices (nbit : Z) (unpacked : list vec) : list vec :=
  if nbit =? 8 then unpacked else map (fun v => vand v (vdup (Z.shiftl 1 nbit - 1))) unpacked.
Definition vec_unpack_32_lut_indices nbit m packed :=
  lut_indices nbit (vec_unpack_32_uintx_values nbit m packed).
Definition vec_unpack_64_lut_indices nbit m packed :=
  lut_indices nbit (vec_unpack_64_uintx_values nbit m packed).
Definition vec_unpack_128_lut_indices nbit m packed :=
  lut_indices nbit (vec_unpack_128_uintx_values nbit m packed).
(** ux.hpp:652-677; [vqtbl1q_s8] gives 0 for an index of 16 or more. *)
Definition vec_unpack_128_lowbit_values_with_lut (nbit : Z) (m : mem) (packed : Z) (lut : vec) : list vec :=
  map (fun (idx : vec) (i : Z) => if idx i <? 16 then lut (idx i) else 0)
    (vec_unpack_128_uintx_values nbit m packed).

(** ** bitspack.hpp: a buffer of kr * nr values *)

(** bitspack.hpp:160-178 pack_buffer; [count] is kr * nr. *)
Definition pack_buffer (nbit count : Z) (m : mem) (packed : Z) (buffer : Z -> Z) : mem :=
  if count =? 128 then
    vec_pack_128_lowbit_values nbit m packed (vld buffer 0) (vld buffer 16) (vld buffer 32)
      (vld buffer 48) (vld buffer 64) (vld buffer 80) (vld buffer 96) (vld buffer 112)
  else if count =? 64 then
    vec_pack_64_lowbit_values nbit m packed (vld buffer 0) (vld buffer 16) (vld buffer 32)
      (vld buffer 48)
  else if count =? 32 then
    vec_pack_32_lowbit_values nbit m packed (vld buffer 0) (vld buffer 16)
  else m.
(** bitspack.hpp:180-193 pack_buffer_for_lut *)
Definition pack_buffer_for_lut (nbit : Z) (m : mem) (packed : Z) (buffer : Z -> Z) : mem :=
  vec_pack_128_uintx_values nbit m packed (vld buffer 0) (vld buffer 16) (vld buffer 32)
    (vld buffer 48) (vld buffer 64) (vld buffer 80) (vld buffer 96) (vld buffer 112).
(** vst1q_s8 of consecutive registers into an array. *)
Definition stored (vals : list vec) : Z -> Z :=
  fun i => nth (Z.to_nat (i / 16)) vals (vdup 0) (i mod 16).
(** bitspack.hpp:195-235 unpack_buffer *)
Definition unpack_buffer (nbit count : Z) (m : mem) (packed : Z) : Z -> Z :=
  if count =? 128 then stored (vec_unpack_128_lowbit_values nbit m packed)
  else if count =? 64 then stored (vec_unpack_64_lowbit_values nbit m packed)
  else if count =? 32 then stored (vec_unpack_32_lowbit_values nbit m packed)
  else fun _ => 0.

(** ** ux_packing.hpp *)

Fixpoint upto {S : Type} (n : nat) (f : Z -> S -> S) (i : Z) (s : S) : S :=
  match n with
  | O => s
  | Datatypes.S n' => upto n' f (i + 1) (f i s)
  end.
(** [for (int i = 0; i < n; i++) s = f(i, s)] *)
Definition zfor {S : Type} (n : Z) (f : Z -> S -> S) (s : S) : S := upto (Z.to_nat n) f 0 s.

(** Number of rounds of [for (int i = 0; i < n; i += step)]. *)
Definition rounds (n step : Z) : Z := (n + step - 1) / step.

(** std::memcpy between two arrays of values. *)
Definition copy (dst : Z -> Z) (doff : Z) (src : Z -> Z) (soff n : Z) : Z -> Z :=
  fun a => if (doff <=? a) && (a <? doff + n) then src (soff + (a - doff)) else dst a.

(** ux_packing.hpp:22-39 pack_values *)
Definition pack_values (packed values : Z -> Z) (nr kr sr : Z) : Z -> Z :=
  let kr_per_sr := kr / sr in
  fst (zfor sr (fun sr_idx st =>
         zfor nr (fun n_idx (st : (Z -> Z) * Z) =>
           let (packed, dst_idx) := st in
           (copy packed dst_idx values (n_idx * kr + sr_idx * kr_per_sr) kr_per_sr,
            dst_idx + kr_per_sr)) st) (packed, 0)).
(** ux_packing.hpp:41-60 unpack_values *)
Definition unpack_values (values packed : Z -> Z) (nr kr sr : Z) : Z -> Z :=
  let kr_per_sr := kr / sr in
  fst (zfor sr (fun sr_idx st =>
         zfor nr (fun n_idx (st : (Z -> Z) * Z) =>
           let (values, dst_idx) := st in
           (copy values (n_idx * kr + sr_idx * kr_per_sr) packed dst_idx kr_per_sr,
            dst_idx + kr_per_sr)) st) (values, 0)).

(** ** Packing the weights *)

(** bitspack.cpp:76-90 compute_sum of [size] values starting at [o]. *)
Definition compute_sum (vals : Z -> Z) (o size : Z) : Z :=
  let full := size / 16 in
  let res := zfor full (fun b res =>
      res + zfor 16 (fun l s => s + vals (o + (16 * b + l))) 0) 0 in
  zfor (size - 16 * full) (fun t res => res + vals (o + (16 * full + t))) res.

(** A 32-bit store / load, little-endian. *)
Definition store32 (m : mem) (p w : Z) : mem :=
  vst 4 m p (fun i => u8 (Z.shiftr w (8 * i))).
Definition load32 (m : mem) (p : Z) : Z :=
  m p + 2 ^ 8 * m (p + 1) + 2 ^ 16 * m (p + 2) + 2 ^ 24 * m (p + 3).
(** An [int32_t] stored as its two's complement pattern. *)
Definition pattern32 (x : Z) : Z := x mod 2 ^ 32.
Definition signed32 (w : Z) : Z := (w + 2 ^ 31) mod 2 ^ 32 - 2 ^ 31.

(** bitspack.hpp:237-256 packed_weights_size_per_n *)
Definition packed_weights_size_per_n (k group_size nbit : Z) (has_zeros has_bias : bool) : Z :=
  let groups_per_col := k / group_size in
  k / 8 * nbit + 4 * groups_per_col + 4 * groups_per_col
  + (if has_zeros then 4 * groups_per_col else 0) + (if has_bias then 4 else 0).
(** bitspack.hpp:448-455 packed_weights_size *)
Definition packed_weights_size (n k group_size nbit : Z) (has_zeros has_bias : bool) (nr : Z) : Z :=
  packed_weights_size_per_n k group_size nbit has_zeros has_bias * ((n + nr - 1) / nr * nr).

(** Is an optional input array given? *)
Definition given (o : option (Z -> Z)) : bool := match o with Some _ => true | None => false end.

Section Weights.
  (** Template parameters. *)
  Variables nbit nr kr sr : Z.
  (** Sizes. *)
  Variables n k group_size : Z.

  (** bitspack.hpp:349-381: one round of the loop over [idx_in_group]: gather kr
      values of nr columns (0 for a column past the last one), add them to the
      column sums, interleave, pack.  The state is memory, pointer, sums. *)
  Definition pack_chunk (weights : Z -> Z) (n_idx k_idx idx_in_group : Z)
      (st : mem * Z * (Z -> Z)) : mem * Z * (Z -> Z) :=
    let '(m, p, sums) := st in
    let '(buffer, sums) :=
      zfor nr (fun j (bs : (Z -> Z) * (Z -> Z)) =>
        let (buffer, sums) := bs in
        if n_idx + j <? n then
          let buffer := copy buffer (kr * j) weights ((n_idx + j) * k + (k_idx + idx_in_group)) kr in
          (buffer, fun i => if i =? j then sums i + compute_sum buffer (kr * j) kr else sums i)
        else (buffer, sums)) (fun _ => 0, sums) in
    let packed_values := pack_values (fun _ => 0) buffer nr kr sr in
    (pack_buffer nbit (kr * nr) m p packed_values, p + nbit * nr * kr / 8, sums).

  (** One 32-bit value for each of the nr columns (bitspack.hpp:386-391, 393-397,
      401-406, 413-418). *)
  Definition put_column_words (w : Z -> Z) (st : mem * Z) : mem * Z :=
    zfor nr (fun j (st : mem * Z) => let (m, p) := st in (store32 m p (w j), p + 4)) st.

  (** bitspack.hpp:330-408: one group. *)
  Definition pack_group (weights scales : Z -> Z) (zeros : option (Z -> Z)) (n_idx group_idx : Z)
      (st : mem * Z) : mem * Z :=
    let groups_per_k := k / group_size in
    let k_idx := group_idx * group_size in
    let '(m, p, sums) :=
      zfor (rounds group_size kr)
        (fun c st => pack_chunk weights n_idx k_idx (c * kr) st) (st, fun _ => 0) in
    let st := put_column_words
      (fun j => if n_idx + j <? n then scales ((n_idx + j) * groups_per_k + group_idx) else 0) (m, p) in
    let st := put_column_words (fun j => pattern32 (sums j)) st in
    match zeros with
    | Some z => put_column_words
        (fun j => pattern32 (if n_idx + j <? n then z ((n_idx + j) * groups_per_k + group_idx) else 0)) st
    | None => st
    end.

  (** bitspack.hpp:327-419: one tile of nr columns. *)
  Definition pack_tile (weights scales : Z -> Z) (zeros bias : option (Z -> Z)) (n_idx : Z)
      (st : mem * Z) : mem * Z :=
    let st := zfor (k / group_size) (fun g st => pack_group weights scales zeros n_idx g st) st in
    match bias with
    | Some b => put_column_words (fun j => if n_idx + j <? n then b (n_idx + j) else 0) st
    | None => st
    end.

  (** bitspack.hpp:271-420 pack_weights_impl without a look-up table, 432-446. *)
  Definition pack_weights (m : mem) (packed : Z) (weights scales : Z -> Z)
      (zeros bias : option (Z -> Z)) : mem :=
    fst (zfor (rounds n nr) (fun t st => pack_tile weights scales zeros bias (t * nr) st) (m, packed)).

  (** The four output arrays of the unpacking functions. *)
  Record unpacked := { u_qvals : Z -> Z; u_scales : Z -> Z; u_zeros : Z -> Z; u_bias : Z -> Z }.

  Definition assign (a : Z -> Z) (i x : Z) : Z -> Z := fun j => if j =? i then x else a j.

  (** bitspack.hpp:457-539 unpack_weights_at_n_idx.  The output pointers of the
      C++ are bases [qo], [so], [zo], [bo] into the caller's arrays. *)
  Definition unpack_chunk (m : mem) (n_idx qo k_idx idx_in_group : Z)
      (st : unpacked * Z) : unpacked * Z :=
    let (out, p) := st in
    let packed_values := unpack_buffer nbit (kr * nr) m p in
    let buffer := unpack_values (fun _ => 0) packed_values nr kr sr in
    let q := zfor nr (fun j q =>
      if n_idx + j <? n then copy q (qo + (j * k + (k_idx + idx_in_group))) buffer (kr * j) kr else q)
      (u_qvals out) in
    ({| u_qvals := q; u_scales := u_scales out; u_zeros := u_zeros out; u_bias := u_bias out |},
     p + nbit * nr * kr / 8).
  Definition unpack_group (m : mem) (n_idx qo so zo : Z) (has_zeros : bool) (group_idx : Z)
      (st : unpacked * Z) : unpacked * Z :=
    let groups_per_k := k / group_size in
    let k_idx := group_idx * group_size in
    let '(out, p) := zfor (rounds group_size kr)
      (fun c st => unpack_chunk m n_idx qo k_idx (c * kr) st) st in
    let '(s, p) := zfor nr (fun j (sp : (Z -> Z) * Z) => let (s, p) := sp in
      (if n_idx + j <? n then assign s (so + (j * groups_per_k + group_idx)) (load32 m p) else s, p + 4))
      (u_scales out, p) in
    let p := p + nr * 4 in
    let '(z, p) := if has_zeros then
        zfor nr (fun j (zp : (Z -> Z) * Z) => let (z, p) := zp in
          (if n_idx + j <? n
           then assign z (zo + (j * groups_per_k + group_idx)) (s8 (signed32 (load32 m p))) else z, p + 4))
          (u_zeros out, p)
      else (u_zeros out, p) in
    ({| u_qvals := u_qvals out; u_scales := s; u_zeros := z; u_bias := u_bias out |}, p).
  Definition unpack_weights_at_n_idx (m : mem) (packed n_idx qo so zo bo : Z)
      (has_zeros has_bias : bool) (out : unpacked) : unpacked :=
    let p := packed + n_idx * packed_weights_size_per_n k group_size nbit has_zeros has_bias in
    let '(out, p) := zfor (k / group_size)
      (fun g st => unpack_group m n_idx qo so zo has_zeros g st) (out, p) in
    if has_bias then
      let '(b, p) := zfor nr (fun j (bp : (Z -> Z) * Z) => let (b, p) := bp in
        (if n_idx + j <? n then assign b (bo + j) (load32 m p) else b, p + 4)) (u_bias out, p) in
      {| u_qvals := u_qvals out; u_scales := u_scales out; u_zeros := u_zeros out; u_bias := b |}
    else out.

  (** bitspack.hpp:541-559 unpack_weights *)
  Definition unpack_weights (m : mem) (packed : Z) (has_zeros has_bias : bool) (out : unpacked) : unpacked :=
    let groups_per_k := k / group_size in
    zfor (rounds n nr) (fun t out =>
      let n_idx := t * nr in
      unpack_weights_at_n_idx m packed n_idx (n_idx * k) (n_idx * groups_per_k)
        (n_idx * groups_per_k) n_idx has_zeros has_bias out) out.
End Weights.
