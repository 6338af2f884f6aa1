(** Properties of the image preprocessor of Qwen2-VL: C104. *)
From Verif Require Import Base DTypeModel ParamModel TensorModel TensorSpec OpsModel VlSpec VlImgModel VlProofs VlGrid VlImg2.
From Verif Require VlPos.
Local Open Scope Z_scope.

(** ** C104: the layout of the patches *)
(** [bytes] is the resized image, h x w pixels of three bytes, row by row. *)
Definition image_byte (bytes : list Z) (w y x c : Z) : Z := nth (Z.to_nat ((y * w + x) * 3 + c)) bytes 0.
Theorem C104_patches : forall {A : Type} (conv : Z -> A) (mul sub div : A -> A -> A) rescale (mean std : Z -> A) N bytes (a b : nat),
  0 < N -> (0 < a)%nat -> (0 < b)%nat ->
  let h := 28 * Z.of_nat a in let w := 28 * Z.of_nat b in
  zlen bytes = h * w * 3 ->
  exists out, flatten_patches conv mul sub div rescale mean std N bytes h w = ROk (out, (1, 2 * Z.of_nat a, 2 * Z.of_nat b)) /\
    x_shape out = [1 * (2 * Z.of_nat a) * (2 * Z.of_nat b); 1176] /\ tensor_ok out /\ contiguous out /\
    forall i gy gx c f py px, nth_error (patch_cells 2 (1, 2 * a, 2 * b)%nat) i = Some (gy, gx) ->
      0 <= c < 3 -> 0 <= f < 2 -> 0 <= py < 14 -> 0 <= px < 14 ->
      elem out [Z.of_nat i; ((c * 2 + f) * 14 + py) * 14 + px] =
      Some (div (sub (mul (conv (image_byte bytes w (Z.of_nat gy * 14 + py) (Z.of_nat gx * 14 + px) c)) rescale) (mean c)) (std c)).
Proof.
  intros A conv mul sub div rescale mean std N bytes a b HN Ha Hb h w Hl.
  destruct (flatten_ok conv mul sub div rescale mean std N bytes (Z.of_nat a) (Z.of_nat b) HN ltac:(lia) ltac:(lia) Hl) as (out & E & S & O & C & El).
  exists out. split; [exact E|]. split; [exact S|]. split; [exact O|]. split; [exact C|]. intros i gy gx c f py px Hi Hc Hf Hpy Hpx.
  unfold patch_cells in Hi. cbn [repeat concat] in Hi. rewrite app_nil_r in Hi.
  rewrite (cells_enum 2 (2 * a) (2 * b) a b ltac:(lia) Hb ltac:(lia) ltac:(lia)) in Hi.
  assert (Bi : (i < 2 * a * (2 * b))%nat).
  { destruct (Nat.lt_ge_cases i (2 * a * (2 * b))) as [L|L]; [exact L|]. exfalso.
    assert (X : nth_error (map (fun p => (hcoord 2 b p, wcoord 2 b p)) (seq 0 (2 * a * (2 * b)))) i = None)
      by (apply nth_error_None; rewrite map_length, seq_length; exact L). rewrite X in Hi. discriminate. }
  rewrite (nth_error_map_seq (fun p => (hcoord 2 b p, wcoord 2 b p))) in Hi by exact Bi. injection Hi as Ey Ex. cbn [Nat.add] in Ey, Ex.
  replace (2 * a * (2 * b))%nat with (a * b * (2 * 2))%nat in Bi by lia.
  destruct (index_split i (a * b) (2 * 2) Bi) as (idx & q & Hidx & Hq & Ei). destruct (index_split q 2 2 Hq) as (jh & jw & Hjh & Hjw & Eq).
  destruct (index_split idx a b Hidx) as (by_ & bx & Hby & Hbx & Eidx).
  assert (Ei' : i = (idx * (2 * 2) + jh * 2 + jw)%nat) by lia.
  destruct (coord_split 2 b idx jh jw Hjh Hjw) as [C1 C2]. rewrite Ei' in Ey, Ex. rewrite C1 in Ey. rewrite C2 in Ex.
  rewrite Eidx in Ey, Ex. rewrite div_mul_add in Ey by exact Hbx. rewrite mod_mul_add in Ex by exact Hbx.
  specialize (El (Z.of_nat by_) (Z.of_nat bx) (Z.of_nat jh) (Z.of_nat jw) c f py px ltac:(lia) ltac:(lia) ltac:(lia) ltac:(lia) Hc Hf Hpy Hpx).
  replace (Z.of_nat i) with (((Z.of_nat by_ * Z.of_nat b + Z.of_nat bx) * 2 + Z.of_nat jh) * 2 + Z.of_nat jw) by (clear - Ei' Eidx; lia).
  rewrite El. unfold pixel, image_byte, VlImg.byte. rewrite <- Ey, <- Ex. unfold w.
  replace ((((Z.of_nat by_ * 2 + Z.of_nat jh) * 14 + py) * (28 * Z.of_nat b) + ((Z.of_nat bx * 2 + Z.of_nat jw) * 14 + px)) * 3 + c)
    with (((Z.of_nat (by_ * 2 + jh) * 14 + py) * (28 * Z.of_nat b) + (Z.of_nat (bx * 2 + jw) * 14 + px)) * 3 + c) by (clear; lia).
  reflexivity.
Qed.
(** The second patch of a 28 x 56 image, whose bytes are their own numbers. *)
Example C104_example : forall N, 0 < N ->
  exists out, flatten_patches (fun v => v) Z.mul Z.sub Z.div 1000 (fun c => c) (fun _ => 1) N (map Z.of_nat (seq 0 (28 * 56 * 3))) 28 56 = ROk (out, (1, 2, 4)) /\
    elem out [4; ((1 * 2 + 1) * 14 + 2) * 14 + 3] = Some (((2 * 56 + 31) * 3 + 1) * 1000 - 1).
Proof.
  intros N HN. destruct (C104_patches (fun v => v) Z.mul Z.sub Z.div 1000 (fun c => c) (fun _ => 1) N (map Z.of_nat (seq 0 (28 * 56 * 3))) 1 2 HN ltac:(lia) ltac:(lia))
    as (out & E & _ & _ & _ & El).
  { unfold zlen. rewrite map_length, seq_length. reflexivity. }
  exists out. split; [exact E|]. specialize (El 4%nat 0%nat 2%nat 1 1 2 3 eq_refl ltac:(lia) ltac:(lia) ltac:(lia) ltac:(lia)).
  change (Z.of_nat 4) with 4 in El. rewrite El. vm_compute. reflexivity.
Qed.
Lemma C104_hypotheses : zlen (map Z.of_nat (seq 0 (28 * 56 * 3))) = 28 * Z.of_nat 1 * (28 * Z.of_nat 2) * 3 /\
  nth_error (patch_cells 2 (1, 2 * 1, 2 * 2)%nat) 4 = Some (0%nat, 2%nat).
Proof. split; [unfold zlen; rewrite map_length, seq_length; reflexivity|reflexivity]. Qed.

Print Assumptions C104_patches.
