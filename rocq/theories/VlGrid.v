(** Vision rotary positions. *)
From Verif Require Import Base DTypeModel ParamModel TensorModel VlModel VlSpec VlProofs.
From Verif Require AotModel AotProofs AotGraph.
Local Open Scope nat_scope.

Definition hcoord (m nw p : nat) : nat := p / (m * m) / nw * m + p mod (m * m) / m.
Definition wcoord (m nw p : nat) : nat := (p / (m * m)) mod nw * m + p mod m.

Lemma block_index : forall (m idx jh jw : nat), jh < m -> jw < m -> jh * m + jw < m * m.
Proof. intros m idx jh jw H1 H2. assert (jh * m + m <= m * m); [|lia]. replace (jh * m + m) with ((jh + 1) * m) by lia. apply Nat.mul_le_mono_r. lia. Qed.
Lemma coord_split : forall m nw idx jh jw, jh < m -> jw < m ->
  hcoord m nw (idx * (m * m) + jh * m + jw) = idx / nw * m + jh /\ wcoord m nw (idx * (m * m) + jh * m + jw) = idx mod nw * m + jw.
Proof.
  intros m nw idx jh jw H1 H2. assert (B := block_index m idx jh jw H1 H2). unfold hcoord, wcoord.
  rewrite <- Nat.add_assoc. rewrite div_mul_add, mod_mul_add, div_mul_add by auto. split; [reflexivity|].
  f_equal. rewrite Nat.add_assoc. replace (idx * (m * m) + jh * m + jw) with ((idx * m + jh) * m + jw) by lia. apply mod_mul_add. auto.
Qed.

Lemma block_does : forall m nw idx, 0 < nw ->
  does2 (grid_block m nw idx)
    (flat_map (fun jh => flat_map (fun jw => [(idx * (m * m) + jh * m + jw, idx / nw * m + jh)]) (seq 0 m)) (seq 0 m))
    (flat_map (fun jh => flat_map (fun jw => [(idx * (m * m) + jh * m + jw, idx mod nw * m + jw)]) (seq 0 m)) (seq 0 m)).
Proof.
  intros m nw idx Hn a a' b b' Ea Eb. unfold grid_block. rewrite ndiv_ok, nmod_ok by auto. cbn [rbind].
  revert a a' b b' Ea Eb. apply does2_loop. intros jh _. apply does2_loop. intros jw _.
  intros a a' b b' Ea Eb. cbn [fst snd put_all] in *. unfold write in *. cbn [fst snd] in *.
  destruct (wr a _ _) as [a1| | |]; cbn [rbind] in *; try discriminate. destruct (wr b _ _) as [b1| | |]; cbn [rbind] in *; try discriminate.
  congruence.
Qed.

Lemma positions_ok : forall m h w nh nw, 0 < m -> 0 < nw -> h = nh * m -> w = nw * m ->
  grid_positions m h w = ROk (map (hcoord m nw) (seq 0 (h * w)), map (wcoord m nw) (seq 0 (h * w))).
Proof.
  intros m h w nh nw Hm Hw Eh Ew. unfold grid_positions. rewrite !ndiv_ok by auto. cbn [rbind].
  rewrite Eh at 1. rewrite Ew at 1 2. rewrite !Nat.div_mul by lia.
  assert (Sz : h * w = nh * nw * (m * m)) by (subst; lia).
  assert (Cov : forall p, p < h * w -> exists idx jh jw, idx < nh * nw /\ jh < m /\ jw < m /\ p = idx * (m * m) + jh * m + jw).
  { intros p Hp. exists (p / (m * m)), (p mod (m * m) / m), (p mod m).
    assert (M : 0 < m * m) by lia. split; [apply Nat.div_lt_upper_bound; lia|].
    split; [apply Nat.div_lt_upper_bound; [lia|]; apply Nat.mod_upper_bound; lia|]. split; [apply Nat.mod_upper_bound; lia|].
    assert (D1 := Nat.div_mod p (m * m)). assert (D2 := Nat.div_mod (p mod (m * m)) m).
    assert (D3 : p mod (m * m) mod m = p mod m). { rewrite Nat.mod_mul_r by lia. rewrite (Nat.mul_comm m ((p / m) mod m)), Nat.mod_add, Nat.mod_mod by lia. reflexivity. }
    rewrite D3 in D2. set (a := p / (m * m)) in *. set (c := p mod (m * m) / m) in *. clearbody a c. rewrite (Nat.mul_comm a), (Nat.mul_comm c). lia. }
  apply (does2_loop (grid_block m nw)
    (fun idx => flat_map (fun jh => flat_map (fun jw => [(idx * (m * m) + jh * m + jw, idx / nw * m + jh)]) (seq 0 m)) (seq 0 m))
    (fun idx => flat_map (fun jh => flat_map (fun jw => [(idx * (m * m) + jh * m + jw, idx mod nw * m + jw)]) (seq 0 m)) (seq 0 m))).
  - intros idx _. apply block_does. exact Hw.
  - rewrite <- (repeat_length 0 (h * w)) at 2. apply put_whole; rewrite repeat_length.
    + intros p v I. apply in_loop in I as (idx & I1 & I). apply in_loop in I as (jh & I2 & I). apply in_loop in I as (jw & I3 & I).
      destruct I as [I|[]]. injection I as <- <-.
      destruct (coord_split m nw idx jh jw) as [-> _]; [lia..|]. split; [|reflexivity].
      assert (B := block_index m idx jh jw ltac:(lia) ltac:(lia)). rewrite Sz.
      assert ((idx + 1) * (m * m) <= nh * nw * (m * m)) by (apply Nat.mul_le_mono_r; lia). lia.
    + intros p Hp. destruct (Cov p Hp) as (idx & jh & jw & C1 & C2 & C3 & ->). eexists.
      apply in_loop. exists idx. split; [lia|]. apply in_loop. exists jh. split; [lia|]. apply in_loop. exists jw. split; [lia|]. left. reflexivity.
  - rewrite <- (repeat_length 0 (h * w)) at 2. apply put_whole; rewrite repeat_length.
    + intros p v I. apply in_loop in I as (idx & I1 & I). apply in_loop in I as (jh & I2 & I). apply in_loop in I as (jw & I3 & I).
      destruct I as [I|[]]. injection I as <- <-.
      destruct (coord_split m nw idx jh jw) as [_ ->]; [lia..|]. split; [|reflexivity].
      assert (B := block_index m idx jh jw ltac:(lia) ltac:(lia)). rewrite Sz.
      assert ((idx + 1) * (m * m) <= nh * nw * (m * m)) by (apply Nat.mul_le_mono_r; lia). lia.
    + intros p Hp. destruct (Cov p Hp) as (idx & jh & jw & C1 & C2 & C3 & ->). eexists.
      apply in_loop. exists idx. split; [lia|]. apply in_loop. exists jh. split; [lia|]. apply in_loop. exists jw. split; [lia|]. left. reflexivity.
Qed.

(** The order of the cells. *)
Lemma cells_enum : forall m h w nh nw, 0 < m -> 0 < nw -> h = nh * m -> w = nw * m ->
  cells m h w = map (fun p => (hcoord m nw p, wcoord m nw p)) (seq 0 (h * w)).
Proof.
  intros m h w nh nw Hm Hw Eh Ew. unfold cells.
  assert (Dh : h / m = nh) by (subst; apply Nat.div_mul; lia). assert (Dw : w / m = nw) by (subst; apply Nat.div_mul; lia).
  rewrite Dh, Dw. replace (h * w) with (nh * (nw * (m * m))) by (subst; lia).
  rewrite map_seq_mul. apply flat_map_ext_seq. intros by_ _. rewrite map_seq_mul. apply flat_map_ext_seq. intros bx Hbx.
  rewrite map_seq_mul. apply flat_map_ext_seq. intros jh Hjh. apply map_ext_seq. intros jw Hjw.
  replace (by_ * (nw * (m * m)) + (bx * (m * m) + (jh * m + jw))) with ((by_ * nw + bx) * (m * m) + jh * m + jw) by lia.
  destruct (coord_split m nw (by_ * nw + bx) jh jw) as [-> ->]; [lia..|].
  rewrite div_mul_add, mod_mul_add by lia. reflexivity.
Qed.
Lemma cells_len : forall m h w nh nw, 0 < m -> 0 < nw -> h = nh * m -> w = nw * m -> length (cells m h w) = h * w.
Proof. intros m h w nh nw H1 H2 H3 H4. rewrite (cells_enum m h w nh nw) by auto. rewrite map_length, seq_length. reflexivity. Qed.
Lemma concat_repeat_len : forall {X} (l : list X) n, length (concat (repeat l n)) = n * length l.
Proof. intros X l n. induction n as [|n IH]; cbn [repeat concat]; [reflexivity|]. rewrite app_length, IH. reflexivity. Qed.
Lemma nth_concat_repeat : forall {X} (l : list X) n i j d, i < n -> j < length l -> nth (i * length l + j) (concat (repeat l n)) d = nth j l d.
Proof.
  intros X l n. induction n as [|n IH]; intros i j d Hi Hj; [lia|]. cbn [repeat concat]. destruct i as [|i].
  - cbn [Nat.mul Nat.add]. apply app_nth1. exact Hj.
  - rewrite app_nth2 by lia. replace (S i * length l + j - length l) with (i * length l + j) by lia. apply IH; lia.
Qed.
Lemma patch_cells_len : forall m g, whole_blocks m g -> length (patch_cells m g) = positions_of g.
Proof.
  intros m [[t h] w] (Hm & Ht & Hh & Hw & (a & Ea) & (b & Eb)). unfold patch_cells, positions_of.
  rewrite concat_repeat_len, (cells_len m h w a b); auto; lia.
Qed.
Definition flat2 (l : list (nat * nat)) : list nat := flat_map (fun yx => [fst yx; snd yx]) l.
Lemma flat2_len : forall l, length (flat2 l) = length l * 2.
Proof. intro l. unfold flat2. apply AotGraph.flat_map_len. reflexivity. Qed.
Lemma flat2_app : forall a b, flat2 (a ++ b) = flat2 a ++ flat2 b.
Proof. intros a b. apply flat_map_app. Qed.
Lemma flat2_nth : forall l i j d, i < length l -> j < 2 -> nth (i * 2 + j) (flat2 l) d = (if j =? 0 then fst else snd) (nth i l (0, 0)).
Proof.
  intro l. induction l as [|[y x] l IH]; intros i j d Hi Hj; cbn [length] in Hi; [lia|]. destruct i as [|i].
  - destruct j as [|[|]]; [reflexivity|reflexivity|lia].
  - change (S i * 2 + j) with (S (S (i * 2 + j))). cbn [flat2 flat_map app nth]. apply IH; lia.
Qed.

Lemma image_ok : forall m g off out, whole_blocks m g -> off + positions_of g * 2 <= length out ->
  image_ids m g (off, out) = ROk (off + positions_of g * 2,
    firstn off out ++ flat2 (patch_cells m g) ++ skipn (off + positions_of g * 2) out).
Proof.
  intros m [[t h] w] off out Hwb Hl. assert (Lc := patch_cells_len m _ Hwb).
  destruct Hwb as (Hm & Ht & Hh & Hw & (nh & Eh) & (nw & Ew)). unfold image_ids.
  assert (Hnw : 0 < nw) by (destruct nw; lia).
  rewrite (positions_ok m h w nh nw) by auto. cbn [rbind fst snd]. unfold positions_of in *.
  set (pc := patch_cells m (t, h, w)) in *.
  assert (Cell : forall f p, f < t -> p < h * w -> nth (f * (h * w) + p) pc (0, 0) = (hcoord m nw p, wcoord m nw p)).
  { intros f p Hf Hp. unfold pc, patch_cells. rewrite <- (cells_len m h w nh nw) in * by auto.
    rewrite nth_concat_repeat by auto. rewrite (cells_len m h w nh nw) in Hp by auto.
    rewrite (cells_enum m h w nh nw) by auto. apply (AotGraph.nth_map_seq (fun p => (hcoord m nw p, wcoord m nw p))). exact Hp. }
  assert (E : put_all (flat_map (fun f => flat_map (fun p => [(off + (f * (h * w) + p) * 2, hcoord m nw p); (off + (f * (h * w) + p) * 2 + 1, wcoord m nw p)])
      (seq 0 (h * w))) (seq 0 t)) out = ROk (firstn off out ++ flat2 pc ++ skipn (off + t * h * w * 2) out)).
  { assert (E2 : flat2 pc = map (fun k => nth k (flat2 pc) 0) (seq 0 (t * h * w * 2))).
    { apply (nth_ext _ _ 0 0); [rewrite map_length, seq_length, flat2_len; lia|].
      intros k Hk. rewrite flat2_len, Lc in Hk. rewrite (AotGraph.nth_map_seq (fun k => nth k (flat2 pc) 0)) by lia. reflexivity. }
    rewrite E2. apply put_block; [lia| |].
    - intros p v I. apply in_loop in I as (f & I1 & I). apply in_loop in I as (q & I2 & I).
      assert (B : f * (h * w) + q < t * h * w).
      { assert ((f + 1) * (h * w) <= t * (h * w)) by (apply Nat.mul_le_mono_r; lia). lia. }
      exists ((f * (h * w) + q) * 2 + (p - (off + (f * (h * w) + q) * 2))).
      destruct I as [I|[I|[]]]; injection I as <- <-.
      + split; [lia|]. split; [lia|]. rewrite flat2_nth by lia.
        replace (off + (f * (h * w) + q) * 2 - (off + (f * (h * w) + q) * 2)) with 0 by lia. cbn [Nat.eqb].
        rewrite Cell by lia. reflexivity.
      + split; [lia|]. split; [lia|]. rewrite flat2_nth by lia.
        replace (off + (f * (h * w) + q) * 2 + 1 - (off + (f * (h * w) + q) * 2)) with 1 by lia. cbn [Nat.eqb].
        rewrite Cell by lia. reflexivity.
    - intros k Hk. assert (P : 0 < h * w) by lia.
      set (i := k / 2). set (f := i / (h * w)). set (q := i mod (h * w)).
      assert (Hi : i < t * h * w) by (apply Nat.div_lt_upper_bound; lia).
      assert (Hf : f < t) by (apply Nat.div_lt_upper_bound; lia). assert (Hq : q < h * w) by (apply Nat.mod_upper_bound; lia).
      assert (D : i = f * (h * w) + q) by (unfold f, q; rewrite (Nat.mul_comm (i / (h * w))); apply Nat.div_mod; lia).
      apply in_loop. exists f. split; [lia|]. apply in_loop. exists q. split; [lia|].
      assert (D2 := Nat.div_mod k 2). fold i in D2. assert (M := Nat.mod_upper_bound k 2).
      destruct (k mod 2) as [|[|]] eqn:Ek; [left|right; left|lia].
      + f_equal; [lia|]. replace k with (i * 2 + 0) by lia. rewrite flat2_nth by lia. rewrite D, Cell by lia. reflexivity.
      + f_equal; [lia|]. replace k with (i * 2 + 1) by lia. rewrite flat2_nth by lia. rewrite D, Cell by lia. reflexivity. }
  rewrite (does_loop _ (fun f => flat_map (fun p => [(off + (f * (h * w) + p) * 2, hcoord m nw p); (off + (f * (h * w) + p) * 2 + 1, wcoord m nw p)])
      (seq 0 (h * w))) t 0) with (b' := firstn off out ++ flat2 pc ++ skipn (off + t * h * w * 2) out); [|intros f _|exact E].
  - cbn [rbind]. do 2 f_equal. lia.
  - apply does_loop. intros p Hp. eapply does_ext; [|apply does_two]. intro b.
    unfold rd. rewrite !nth_error_map_seq by lia. reflexivity.
Qed.

Lemma fold_total : forall grid n, fold_left (fun n g => n + positions_of g) grid n = n + total_positions grid.
Proof.
  intro grid. unfold total_positions. induction grid as [|g r IH]; intro n; cbn [fold_left]; [lia|]. rewrite IH, (IH (0 + _)). lia.
Qed.
Lemma total_cons : forall g r, total_positions (g :: r) = positions_of g + total_positions r.
Proof. intros g r. unfold total_positions at 1. cbn [fold_left]. rewrite fold_total. lia. Qed.
Lemma images_ok : forall m grid pre b, Forall (whole_blocks m) grid -> length b = total_positions grid * 2 ->
  images_ids m grid (length pre, pre ++ b) = ROk (length pre + total_positions grid * 2, pre ++ flat2 (flat_map (patch_cells m) grid)).
Proof.
  intros m grid. induction grid as [|g r IH]; intros pre b Hg Hl; cbn [images_ids flat_map].
  - unfold total_positions in *. cbn [fold_left] in *. destruct b; [|discriminate]. rewrite Nat.add_0_r. reflexivity.
  - rewrite total_cons in *. rewrite image_ok by (try apply (Forall_inv Hg); rewrite app_length; lia). cbn [rbind].
    assert (Lc := patch_cells_len m g (Forall_inv Hg)).
    rewrite firstn_app, Nat.sub_diag, firstn_all, app_nil_r. cbn [firstn].
    rewrite skipn_app, skipn_all2 by lia. cbn [app]. replace (length pre + positions_of g * 2 - length pre) with (positions_of g * 2) by lia.
    rewrite app_assoc. assert (Ln : length (pre ++ flat2 (patch_cells m g)) = length pre + positions_of g * 2) by (rewrite app_length, flat2_len; lia).
    rewrite <- Ln. rewrite IH; [|apply (Forall_inv_tail Hg)|rewrite skipn_length; lia].
    rewrite Ln, flat2_app, app_assoc. do 2 f_equal. lia.
Qed.
Lemma visual_ids_ok : forall m grid b, Forall (whole_blocks m) grid -> length b = total_positions grid * 2 ->
  visual_ids m grid b = ROk (flat2 (flat_map (patch_cells m) grid)).
Proof.
  intros m grid b Hg Hl. unfold visual_ids. replace (length b =? total_positions grid * 2) with true by lia.
  assert (E := images_ok m grid [] b Hg Hl). cbn [length app] in E. rewrite E. reflexivity.
Qed.

(** Every cell exactly once. *)
Lemma nodup_prod : forall {X Y} (a : list X) (b : list Y), NoDup a -> NoDup b -> NoDup (list_prod a b).
Proof.
  intros X Y a b Ha Hb. induction Ha as [|x a Hx Ha IH]; cbn [list_prod]; [constructor|].
  assert (N1 : NoDup (map (fun y => (x, y)) b)).
  { clear - Hb. induction Hb as [|y b Hy Hb IH]; cbn [map]; constructor; auto. intro I. apply in_map_iff in I as (z & E & I). congruence. }
  assert (D : forall p, In p (map (fun y => (x, y)) b) -> ~ In p (list_prod a b)).
  { intros p I J. apply in_map_iff in I as (y & <- & _). apply in_prod_iff in J as [J _]. auto. }
  clear - N1 D IH. induction N1 as [|p l Hp N1 IH1]; cbn [app]; auto.
  constructor; [|apply IH1; intros q I; apply D; right; exact I]. intro I. apply in_app_or in I as [I|I]; [auto|].
  apply (D p); auto. left. reflexivity.
Qed.
Lemma cells_all : forall m h w nh nw, 0 < m -> 0 < nw -> h = nh * m -> w = nw * m ->
  Permutation (cells m h w) (list_prod (seq 0 h) (seq 0 w)).
Proof.
  intros m h w nh nw Hm Hn Eh Ew. apply Permutation_sym, NoDup_Permutation_bis.
  - apply nodup_prod; apply seq_NoDup.
  - rewrite (cells_len m h w nh nw), prod_length, !seq_length by auto. lia.
  - intros [y x] I. apply in_prod_iff in I as [Iy Ix]. apply in_seq in Iy, Ix.
    assert (Dh : h / m = nh) by (subst; apply Nat.div_mul; lia). assert (Dw : w / m = nw) by (subst; apply Nat.div_mul; lia).
    unfold cells. apply in_loop. exists (y / m). assert (y / m < nh) as Hby by (apply Nat.div_lt_upper_bound; lia).
    split; [rewrite Dh; split; [apply Nat.le_0_l|exact Hby]|]. apply in_loop. exists (x / m). assert (x / m < nw) as Hbx by (apply Nat.div_lt_upper_bound; lia).
    split; [rewrite Dw; split; [apply Nat.le_0_l|exact Hbx]|]. apply in_loop. exists (y mod m). assert (y mod m < m) by (apply Nat.mod_upper_bound; lia). split; [lia|].
    apply in_map_iff. exists (x mod m). assert (x mod m < m) by (apply Nat.mod_upper_bound; lia). split; [|apply in_seq; lia].
    assert (D1 := Nat.div_mod y m). assert (D2 := Nat.div_mod x m). f_equal; lia.
Qed.
