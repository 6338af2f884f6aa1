(** C156–C158: cropping, tiling and padding images. *)
From Verif Require Import Base CropModel CropSpec CropProofs.
Local Open Scope Z_scope.

Lemma inside_iff : forall m x y, inside m x y = true <-> (0 <= x < iw m /\ 0 <= y < ih m).
Proof.
  intros m x y. unfold inside. rewrite !andb_true_iff, !Z.leb_le, !Z.ltb_lt. tauto.
Qed.

(** C156: a crop is the box asked for, with the image's pixels where the box covers the
    image and zeros elsewhere; nothing outside the new buffer is written. *)
Theorem C156_crop : forall fresh src l u r b, l < r -> u < b ->
  exists out, crop fresh src l u r b = Some out /\ iw out = r - l /\ ih out = b - u /\
    (forall x y c, inside out x y = true -> 0 <= c < 3 ->
       at_pixel out x y c = if inside src (l + x) (u + y) then at_pixel src (l + x) (u + y) c else 0) /\
    (forall i, ~ 0 <= i < 3 * iw out * ih out -> bytes out i = fresh i).
Proof.
  intros fresh src l u r b LR UB. unfold crop.
  destruct (Z.ltb_spec l r) as [_|Q]; [|lia]. destruct (Z.ltb_spec u b) as [_|Q]; [|lia]. cbn [andb negb].
  eexists. split; [reflexivity|]. cbn [iw ih bytes]. split; [reflexivity|]. split; [reflexivity|].
  set (w := r - l). set (h := b - u).
  set (pos := fun p : Z * Z => fst p * w + snd p).
  set (val := fun (p : Z * Z) c => if inside src (l + snd p) (u + fst p) then at_pixel src (l + snd p) (u + fst p) c else 0).
  rewrite (loop2_step (fun _ => true) pos val); cycle 1.
  { intros y x m. unfold step, pos, val, inside, at_pixel, write3. cbn [fst snd].
    destruct ((0 <=? l + x) && (l + x <? iw src) && (0 <=? u + y) && (u + y <? ih src)); reflexivity. }
  split.
  - intros x y c I C. apply inside_iff in I. cbn [iw ih] in I. unfold at_pixel at 1. cbn [iw bytes].
    change (y * w + x) with (pos (y, x)). rewrite steps_in; [reflexivity|exact C|apply in_grid; lia|reflexivity|].
    intros [y' x'] G _ E. apply in_grid in G. unfold pos in E. cbn [fst snd] in E.
    destruct (pos_inj w y' x' y x) as [-> ->]; [lia|lia|exact E|reflexivity].
  - intros i N. rewrite (Z.div_mod i 3) by lia. replace (3 * (i / 3)) with (i / 3 * 3) by lia.
    assert (M := Z.mod_pos_bound i 3 ltac:(lia)). apply steps_out; [exact M|].
    intros [y x] G _ E. apply in_grid in G. unfold pos in E. cbn [fst snd] in E. apply N.
    assert (D := Z.div_mod i 3 ltac:(lia)). rewrite <- E in D. nia.
Qed.

(** C156: the centre crop has the size asked for and takes the middle of the image: what is
    left over (or missing) on opposite sides differs by at most one pixel. *)
Theorem C156_center : forall fresh src ch cw, 0 < ch -> 0 < cw ->
  exists out left upper, center_crop fresh src ch cw = Some out /\ iw out = cw /\ ih out = ch /\
    Z.abs (left - (iw src - (left + cw))) <= 1 /\ Z.abs (upper - (ih src - (upper + ch))) <= 1 /\
    (forall x y c, inside out x y = true -> 0 <= c < 3 ->
       at_pixel out x y c = if inside src (left + x) (upper + y) then at_pixel src (left + x) (upper + y) c else 0).
Proof.
  intros fresh src ch cw H W. unfold center_crop.
  set (left := Z.quot (iw src - cw) 2). set (upper := Z.quot (ih src - ch) 2).
  destruct (C156_crop fresh src left upper (left + cw) (upper + ch) ltac:(lia) ltac:(lia)) as [out [E [A [B [P _]]]]].
  exists out, left, upper. split; [exact E|]. split; [lia|]. split; [lia|].
  assert (Q : forall n, Z.abs (2 * Z.quot n 2 - n) <= 1).
  { intros n. assert (D := Z.quot_rem' n 2). assert (R := Z.rem_bound_abs n 2 ltac:(lia)). lia. }
  split; [assert (D := Q (iw src - cw)); fold left in D; lia|]. split; [assert (D := Q (ih src - ch)); fold upper in D; lia|].
  exact P.
Qed.

(** C157: the tiles are as many as the grid has, each of the size asked for; every pixel of
    the resized image is in exactly one of them, where the grid has it, row of tiles after
    row of tiles. *)
Theorem C157_tiles : forall resize fresh src size across down, resizes resize -> 0 < size -> 0 < across -> 0 < down ->
  let ts := tiles resize fresh src size across down in
  let big := resize src (size * across) (size * down) in
  length ts = Z.to_nat (across * down) /\
  (forall i, 0 <= i < across * down -> exists t, nth_error ts (Z.to_nat i) = Some (Some t) /\ iw t = size /\ ih t = size /\
     forall x y c, inside t x y = true -> 0 <= c < 3 ->
       at_pixel t x y c = at_pixel big (i mod across * size + x) (i / across * size + y) c) /\
  (forall X Y, inside big X Y = true -> exists! p : Z * Z * Z,
     let '(i, x, y) := p in 0 <= i < across * down /\ 0 <= x < size /\ 0 <= y < size /\
     X = i mod across * size + x /\ Y = i / across * size + y).
Proof.
  intros resize fresh src size across down RS S A D ts big.
  assert (C : size * across / size = across) by (rewrite Z.mul_comm; apply Z.div_mul; lia).
  destruct (RS src (size * across) (size * down)) as [BW BH]. fold big in BW, BH.
  split; [|split].
  - unfold ts, tiles, zseq. rewrite !map_length, seq_length. reflexivity.
  - intros i I. unfold ts, tiles. fold big. rewrite C.
    assert (Hm := Z.mod_pos_bound i across A). assert (Hd : 0 <= i / across < down).
    { split; [apply Z.div_pos; lia|apply Z.div_lt_upper_bound; lia]. }
    destruct (C156_crop fresh big (i mod across * size) (i / across * size) (i mod across * size + size) (i / across * size + size)
      ltac:(lia) ltac:(lia)) as [t [E [W [H [P _]]]]].
    exists t. split; [|split; [lia|split; [lia|]]].
    + unfold zseq. rewrite map_map. rewrite nth_error_map.
      assert (Nth : nth_error (seq 0 (Z.to_nat (across * down))) (Z.to_nat i) = Some (Z.to_nat i)).
      { rewrite (nth_error_nth' _ O) by (rewrite seq_length; lia). rewrite seq_nth by lia. reflexivity. }
      rewrite Nth. cbn [option_map]. rewrite Z2Nat.id by lia. rewrite E. reflexivity.
    + intros x y c In Hc. rewrite (P x y c In Hc). apply inside_iff in In.
      assert (IN : inside big (i mod across * size + x) (i / across * size + y) = true) by (apply inside_iff; rewrite BW, BH; nia).
      rewrite IN. reflexivity.
  - intros X Y In. apply inside_iff in In. rewrite BW, BH in In.
    assert (MX := Z.mod_pos_bound X size S). assert (MY := Z.mod_pos_bound Y size S).
    assert (DX := Z.div_mod X size ltac:(lia)). assert (DY := Z.div_mod Y size ltac:(lia)).
    assert (QX : 0 <= X / size < across) by (split; [apply Z.div_pos; lia|apply Z.div_lt_upper_bound; lia]).
    assert (QY : 0 <= Y / size < down) by (split; [apply Z.div_pos; lia|apply Z.div_lt_upper_bound; lia]).
    exists (Y / size * across + X / size, X mod size, Y mod size). split.
    + assert (M1 : (Y / size * across + X / size) mod across = X / size).
      { rewrite Z.add_comm, Z.mod_add by lia. apply Z.mod_small. exact QX. }
      assert (D1 : (Y / size * across + X / size) / across = Y / size).
      { rewrite Z.add_comm, Z.div_add by lia. rewrite Z.div_small by exact QX. lia. }
      rewrite M1, D1. repeat split; try lia; nia.
    + intros [[i x] y] [I [Hx [Hy [EX EY]]]].
      assert (X / size = i mod across) by (symmetry; apply (Z.div_unique X size (i mod across) x); lia).
      assert (X mod size = x) by (symmetry; apply (Z.mod_unique X size (i mod across) x); lia).
      assert (Y / size = i / across) by (symmetry; apply (Z.div_unique Y size (i / across) y); lia).
      assert (Y mod size = y) by (symmetry; apply (Z.mod_unique Y size (i / across) y); lia).
      assert (DI := Z.div_mod i across ltac:(lia)). f_equal; [f_equal|]; [nia|assumption|assumption].
Qed.

Lemma round_div_exact : forall a b, 0 < b -> round_div (b * a) b = a.
Proof.
  intros a b H. unfold round_div. symmetry. apply (Z.div_unique _ _ a b); [lia|]. lia.
Qed.

Lemma round_div_le : forall a b t, 0 < b -> a <= t * b -> round_div a b <= t.
Proof.
  intros a b t H L. unfold round_div. apply Z.lt_succ_r. apply Z.div_lt_upper_bound; nia.
Qed.

Lemma round_div_near : forall a b, 0 < b -> - b <= 2 * a - 2 * b * round_div a b < b.
Proof.
  intros a b H. unfold round_div. assert (D := Z.div_mod (2 * a + b) (2 * b) ltac:(lia)).
  assert (M := Z.mod_pos_bound (2 * a + b) (2 * b) ltac:(lia)). lia.
Qed.

(** C158: the size an image is padded from fits in the target, touches two of its sides, and
    keeps the proportions to half a pixel (a side that would vanish is one pixel wide). *)
Theorem C158_size : forall w h tw th, 0 < w -> 0 < h -> 0 < tw -> 0 < th ->
  let (nw, nh) := pad_size w h tw th in
  1 <= nw <= tw /\ 1 <= nh <= th /\
  ((nw = tw /\ (nh = 1 \/ Z.abs (2 * nh * w - 2 * h * tw) <= w)) \/
   (nh = th /\ (nw = 1 \/ Z.abs (2 * nw * h - 2 * w * th) <= h))).
Proof.
  intros w h tw th W H TW TH. unfold pad_size. destruct (Z.leb_spec (tw * h) (th * w)) as [L|L]; cbn [fst snd].
  - rewrite round_div_exact by exact W. assert (Q := round_div_le (h * tw) w th W ltac:(lia)). assert (R := round_div_near (h * tw) w W).
    split; [lia|]. split; [lia|]. left. split; [lia|].
    destruct (Z.le_gt_cases (round_div (h * tw) w) 1) as [K|K]; [left; lia|right]. rewrite Z.max_r by lia. nia.
  - rewrite round_div_exact by exact H. assert (Q := round_div_le (w * th) h tw H ltac:(lia)). assert (R := round_div_near (w * th) h H).
    split; [lia|]. split; [lia|]. right. split; [lia|].
    destruct (Z.le_gt_cases (round_div (w * th) h) 1) as [K|K]; [left; lia|right]. rewrite Z.max_r by lia. nia.
Qed.

(** C158: padding gives an image of the target size: the resized image in the middle, every
    other pixel in the colour given; nothing outside the new buffer is written. *)
Theorem C158_pad : forall resize fresh src tw th color, resizes resize -> 0 < iw src -> 0 < ih src -> 0 < tw -> 0 < th ->
  exists out left upper, let small := resize src (fst (pad_size (iw src) (ih src) tw th)) (snd (pad_size (iw src) (ih src) tw th)) in
    pad resize fresh src tw th color = Some out /\ iw out = tw /\ ih out = th /\
    0 <= left /\ 0 <= upper /\ 0 <= tw - (left + iw small) - left <= 1 /\ 0 <= th - (upper + ih small) - upper <= 1 /\
    (forall x y c, inside out x y = true -> 0 <= c < 3 ->
       at_pixel out x y c = if inside small (x - left) (y - upper) then at_pixel small (x - left) (y - upper) c else color c) /\
    (forall i, ~ 0 <= i < 3 * tw * th -> bytes out i = fresh i).
Proof.
  intros resize fresh src tw th color RS W H TW TH. assert (SZ := C158_size (iw src) (ih src) tw th W H TW TH).
  unfold pad. destruct (Z.ltb_spec 0 tw) as [_|Q]; [|lia]. destruct (Z.ltb_spec 0 th) as [_|Q]; [|lia]. cbn [andb negb].
  destruct (pad_size (iw src) (ih src) tw th) as [nw nh]. cbn [fst snd]. destruct SZ as [S1 [S2 _]].
  destruct (RS src nw nh) as [BW BH]. set (small := resize src nw nh) in *.
  set (left := Z.quot (tw - nw) 2). set (upper := Z.quot (th - nh) 2).
  assert (QL : 0 <= left /\ 0 <= (tw - nw) - 2 * left <= 1).
  { unfold left. rewrite Z.quot_div_nonneg by lia. assert (D := Z.div_mod (tw - nw) 2 ltac:(lia)). assert (M := Z.mod_pos_bound (tw - nw) 2 ltac:(lia)). lia. }
  assert (QU : 0 <= upper /\ 0 <= (th - nh) - 2 * upper <= 1).
  { unfold upper. rewrite Z.quot_div_nonneg by lia. assert (D := Z.div_mod (th - nh) 2 ltac:(lia)). assert (M := Z.mod_pos_bound (th - nh) 2 ltac:(lia)). lia. }
  set (pos0 := fun p : Z * Z => fst p * tw + snd p).
  set (pos := fun p : Z * Z => (upper + fst p) * tw + (left + snd p)).
  set (val := fun (p : Z * Z) c => at_pixel small (snd p) (fst p) c).
  eexists. exists left, upper. cbv zeta. split; [reflexivity|]. cbn [iw ih bytes].
  rewrite (loop2_step (fun p => negb ((upper + fst p <? 0) || (th <=? upper + fst p) || (left + snd p <? 0) || (tw <=? left + snd p))) pos val); cycle 1.
  { intros y x m. unfold step, pos, val, at_pixel, write3. cbn [fst snd]. rewrite BW.
    destruct (upper + y <? 0), (th <=? upper + y), (left + x <? 0), (tw <=? left + x); reflexivity. }
  rewrite (loop2_step (fun _ => true) pos0 (fun _ => color)) by reflexivity.
  split; [reflexivity|]. split; [reflexivity|]. rewrite BW, BH. split; [lia|]. split; [lia|]. split; [lia|]. split; [lia|]. split.
  - intros x y c I C. apply inside_iff in I. cbn [iw ih] in I. unfold at_pixel at 1. cbn [iw bytes].
    destruct (inside small (x - left) (y - upper)) eqn:E.
    + apply inside_iff in E. rewrite BW, BH in E.
      assert (EP : y * tw + x = pos (y - upper, x - left)) by (unfold pos; cbn [fst snd]; lia). rewrite EP.
      rewrite steps_in; [reflexivity|exact C|apply in_grid; lia| |].
      * cbn [fst snd]. destruct (Z.ltb_spec (upper + (y - upper)) 0), (Z.leb_spec th (upper + (y - upper))), (Z.ltb_spec (left + (x - left)) 0), (Z.leb_spec tw (left + (x - left))); try lia; reflexivity.
      * intros [y' x'] G _ E'. apply in_grid in G. unfold pos in E'. cbn [fst snd] in E'.
        destruct (pos_inj tw (upper + y') (left + x') (upper + (y - upper)) (left + (x - left))) as [E1 E2]; [lia|lia|exact E'|].
        f_equal; lia.
    + rewrite steps_out; [|exact C|].
      * change (y * tw + x) with (pos0 (y, x)). rewrite steps_in; [reflexivity|exact C|apply in_grid; lia|reflexivity|].
        intros [y' x'] G _ E'. apply in_grid in G. unfold pos0 in E'. cbn [fst snd] in E'.
        destruct (pos_inj tw y' x' y x) as [-> ->]; [lia|lia|exact E'|reflexivity].
      * intros [y' x'] G _ E'. apply in_grid in G. unfold pos in E'. cbn [fst snd] in E'.
        destruct (pos_inj tw (upper + y') (left + x') y x) as [E1 E2]; [lia|lia|exact E'|].
        assert (T : inside small (x - left) (y - upper) = true) by (apply inside_iff; rewrite BW, BH; lia). congruence.
  - intros i N. rewrite (Z.div_mod i 3) by lia. replace (3 * (i / 3)) with (i / 3 * 3) by lia.
    assert (M := Z.mod_pos_bound i 3 ltac:(lia)). assert (D := Z.div_mod i 3 ltac:(lia)).
    assert (K : forall a, 0 <= a < tw * th -> a <> i / 3) by (intros a Ha ->; apply N; nia).
    rewrite steps_out; [apply steps_out; [exact M|]|exact M|].
    + intros [y x] G _. apply in_grid in G. apply K. unfold pos0. cbn [fst snd]. nia.
    + intros [y x] G _. apply in_grid in G. apply K. unfold pos. cbn [fst snd]. split; nia.
Qed.

(** A resize as stb's, and a picture padded and tiled. *)
Definition nearest (m : image) (w h : Z) : image :=
  mkImage w h (fun i => bytes m ((i / 3 / w * ih m / h * iw m + i / 3 mod w * iw m / w) * 3 + i mod 3)).
Example C156_C157_C158_hypotheses :
  resizes nearest /\
  let src := mkImage 3 2 (fun i => i + 10) in
  (exists out, pad nearest (fun _ => -1) src 4 4 (fun _ => 7) = Some out /\
     map (fun x => at_pixel out x 3 0) [0; 1; 2; 3] = [7; 7; 7; 7] /\ map (fun x => at_pixel out x 0 0) [0; 1; 2; 3] = [10; 10; 13; 16]) /\
  (exists out, center_crop (fun _ => -1) src 4 1 = Some out /\ map (fun y => at_pixel out 0 y 0) [0; 1; 2; 3] = [0; 13; 22; 0]).
Proof.
  split; [intros m w h; split; reflexivity|]. cbv zeta. split; eexists; (split; [reflexivity|]); vm_compute; [split; reflexivity|reflexivity].
Qed.
Print Assumptions C156_crop.
Print Assumptions C156_center.
Print Assumptions C157_tiles.
Print Assumptions C158_size.
Print Assumptions C158_pad.
