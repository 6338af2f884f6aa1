(** Properties C110-C114: MiniCPM-o image and audio input. *)
From Coq Require Import SpecFloat.
From Verif Require Import Base DTypeModel ParamModel TensorModel VlModel VlProofs CpmModel CpmSpec CpmSlice CpmPix CpmText CpmVis CpmFloat CpmAudioModel CpmAudio.
From Verif Require AotModel AotProofs AotGraph.
Local Open Scope nat_scope.

(** ** C110: the slices tile the image *)
Lemma grid_ok fl maxs w h never g : get_sliced_grid fl maxs w h never = Some g -> 1 <= fst g /\ 1 <= snd g /\ fst g * snd g <= maxs.
Proof.
  unfold get_sliced_grid. set (m := Nat.min (f_multiple fl w h) maxs). destruct ((m <=? 1) || never) eqn:E; [discriminate|]. apply orb_false_elim in E as [E _]. apply Nat.leb_gt in E.
  intro H. injection H as <-. destruct (pick_in (f_closer fl w h) (candidates maxs m) ((1, 1), None)) as [X|X]; cbv zeta in X.
  - apply candidates_in in X as (n & _ & Hn & Hp & H1 & H2). rewrite Hp. lia.
  - rewrite X. cbn. lia.
Qed.
Lemma concat_nth {A} (l : list (list A)) k r c line : Forall (fun x => length x = k) l -> nth_error l r = Some line -> c < k -> nth_error (concat l) (r * k + c) = nth_error line c.
Proof.
  intros F H Hc. rewrite <- (map_id l) at 1. rewrite <- flat_map_concat_map. rewrite (nth_error_flat _ k) by assumption. rewrite H. reflexivity.
Qed.
Theorem C110_tiles : forall fl resize maxs scale ps img, resizes resize -> 1 <= ps ->
  exists source patches g, slice_image fl resize maxs scale ps img = ROk (source, patches, g) /\
    (forall p, In p (pictures (source, patches, g)) -> rgb p /\ exists a b, 1 <= a /\ 1 <= b /\ i_w p = a * ps /\ i_h p = b * ps) /\
    length (pictures (source, patches, g)) = 1 + slices g /\
    match g with
    | None => True
    | Some (cols, rows) =>
        1 <= cols /\ 1 <= rows /\ cols * rows <= maxs /\
        exists sw sh, 1 <= sw /\ 1 <= sh /\
          forall y x ch, y < rows * sh -> x < cols * sw -> ch < 3 ->
            exists slice, nth_error (pictures (source, patches, g)) (1 + ((y / sh) * cols + x / sw)) = Some slice /\ i_w slice = sw /\ i_h slice = sh /\
              pixel (resize img (cols * sw) (rows * sh)) y x ch = pixel slice (y mod sh) (x mod sw) ch /\ pixel slice (y mod sh) (x mod sw) ch <> None
    end.
Proof.
  intros fl resize maxs scale ps img R Hps. unfold slice_image. destruct (get_sliced_grid fl maxs (i_w img) (i_h img) false) as [[cols rows]|] eqn:G.
  - apply grid_ok in G as (G1 & G2 & G3). cbn [fst snd] in *. destruct (refine_ok fl scale ps (i_w img) (i_h img) (cols, rows) G1 G2) as (a & b & Ha & Hb & E). rewrite E. cbn [rbind fst snd].
    destruct (resize_ok fl scale ps (i_w img) (i_h img) false) as (a0 & b0 & Ha0 & Hb0 & E0). rewrite E0. cbn [fst snd].
    destruct (R img (a * ps * cols) (b * ps * rows)) as (Rw & Rh & Rr). destruct (R img (a0 * ps) (b0 * ps)) as (Sw & Sh & Sr).
    assert (Pw : 1 <= a * ps) by (apply (Nat.mul_le_mono 1 a 1 ps); assumption). assert (Ph : 1 <= b * ps) by (apply (Nat.mul_le_mono 1 b 1 ps); assumption).
    destruct (split_ok (resize img (a * ps * cols) (b * ps * rows)) cols rows (a * ps) (b * ps) Rr G1 G2 Pw Ph) as (pt & E2 & L & S); [rewrite Rw; apply Nat.mul_comm|rewrite Rh; apply Nat.mul_comm|].
    rewrite E2. cbn [rbind]. eexists _, pt, (Some (cols, rows)). split; [reflexivity|].
    assert (Fl : Forall (fun line => length line = cols) pt).
    { apply Forall_forall. intros line Hl. apply In_nth_error in Hl as [r Hr]. assert (r < rows) by (rewrite <- L; apply nth_error_Some; congruence). destruct (S r H) as (line' & E3 & L3 & _). congruence. }
    unfold pictures. cbn [fst snd slices]. split; [|split].
    + intros p [<-|Hp]; [split; [exact Sr|]; exists a0, b0; auto|]. apply in_concat in Hp as (line & Hl & Hp). apply In_nth_error in Hl as [r Hr]. apply In_nth_error in Hp as [c Hc].
      assert (r < rows) by (rewrite <- L; apply nth_error_Some; congruence). destruct (S r H) as (line' & E3 & L3 & S3). assert (line' = line) by congruence. subst line'.
      assert (c < cols) by (rewrite <- L3; apply nth_error_Some; congruence). destruct (S3 c H0) as (o & Eo & Ow & Oh & Or & _). assert (o = p) by congruence. subst o. split; [exact Or|]. exists a, b. auto.
    + cbn [length]. rewrite <- (map_id pt), <- flat_map_concat_map, (AotGraph.flat_map_len _ cols); [rewrite L; cbn [fst snd]; lia|]. intros x Hx. rewrite Forall_forall in Fl. apply Fl, Hx.
    + split; [exact G1|]. split; [exact G2|]. split; [exact G3|]. exists (a * ps), (b * ps). split; [exact Pw|]. split; [exact Ph|]. intros y x ch Hy Hx Hch.
      assert (Qy : y / (b * ps) < rows) by (apply Nat.div_lt_upper_bound; [lia|rewrite Nat.mul_comm; exact Hy]). assert (Qx : x / (a * ps) < cols) by (apply Nat.div_lt_upper_bound; [lia|rewrite Nat.mul_comm; exact Hx]).
      destruct (S _ Qy) as (line & E3 & L3 & S3). destruct (S3 _ Qx) as (o & Eo & Ow & Oh & Or & Op). exists o. cbn [nth_error Nat.add]. rewrite (concat_nth pt cols _ _ line Fl E3 Qx).
      split; [exact Eo|]. split; [exact Ow|]. split; [exact Oh|].
      assert (My := Nat.mod_upper_bound y (b * ps) ltac:(lia)). assert (Mx := Nat.mod_upper_bound x (a * ps) ltac:(lia)).
      split.
      * rewrite Op by assumption. rewrite (Nat.mul_comm cols), (Nat.mul_comm rows). rewrite (Nat.mul_comm (y / (b * ps))), (Nat.mul_comm (x / (a * ps))), <- !Nat.div_mod by lia. reflexivity.
      * unfold pixel. destruct Or as [Oc Od]. rewrite Ow, Oh, Oc. replace (y mod (b * ps) <? b * ps) with true by lia. replace (x mod (a * ps) <? a * ps) with true by lia. replace (ch <? 3) with true by lia. cbn [andb].
        apply nth_error_Some. rewrite Od, Ow, Oh. apply flat3; assumption.
  - destruct (resize_ok fl scale ps (i_w img) (i_h img) true) as (a0 & b0 & Ha0 & Hb0 & E0). rewrite E0. cbn [fst snd]. destruct (R img (a0 * ps) (b0 * ps)) as (Sw & Sh & Sr).
    eexists _, [], None. split; [reflexivity|]. unfold pictures. cbn [fst snd concat slices length]. split; [|split; [reflexivity|exact I]]. intros p [<-|[]]. split; [exact Sr|]. exists a0, b0. auto.
Qed.

(** The grid is, among all ways to lay out one slice less, as many slices as the area asks for or one more (at least two,
    at most the maximum), one whose error is smallest. *)
Theorem C110_closest : forall E (lt : E -> E -> Prop) err fl maxs w h g, sorts lt err (f_closer fl w h) -> get_sliced_grid fl maxs w h false = Some g ->
  let m := Nat.min (f_multiple fl w h) maxs in
  let allowed := fun g => 1 <= fst g /\ 1 <= snd g /\ 2 <= fst g * snd g <= maxs /\ m - 1 <= fst g * snd g <= m + 1 in
  allowed g /\ forall g', allowed g' -> ~ lt (err g') (err g).
Proof.
  intros E lt err fl maxs w h g S H m allowed. unfold get_sliced_grid in H. fold m in H. destruct ((m <=? 1) || false) eqn:Em; [discriminate|]. apply orb_false_elim in Em as [Em _]. apply Nat.leb_gt in Em.
  injection H as <-. assert (Ok : forall g, In g (candidates maxs m) <-> allowed g).
  { intro g. rewrite candidates_in. unfold allowed. split.
    - intros (n & Hn & B & P & H1 & H2). rewrite P. lia.
    - intros (H1 & H2 & B & P). exists (fst g * snd g). lia. }
  destruct (candidates maxs m) as [|g0 l] eqn:C.
  - exfalso. assert (X : In (1, m) (@nil (nat * nat))); [|destruct X]. apply Ok. unfold allowed. cbn [fst snd]. unfold m in *. lia.
  - cbn [fold_left snd]. assert (N0 : f_closer fl w h None g0 = true) by apply S. rewrite N0. destruct (pick_best lt err (f_closer fl w h) S l g0) as [B I]. cbv zeta in B, I. split; [apply Ok; exact I|].
    intros g' Hg'. apply B. apply Ok. exact Hg'.
Qed.

(** ** C111: the pixels *)
Section C111.
Context {F : Type} (ofbyte : Z -> F) (sub div : F -> F -> F) (mean std : list F) (zero : F).
(** What the model is given for a byte of channel [c]. *)
Definition normalised (c : nat) (b : Z) : option F :=
  match nth_error mean c, nth_error std c with Some m, Some s => Some (div (sub (ofbyte b) m) s) | _, _ => None end.
Theorem C111_pixels : forall ps junk source patches, 1 <= ps -> 3 <= length mean -> 3 <= length std -> (forall n, length (junk n) = n) ->
  let pics := source :: concat patches in
  (forall p, In p pics -> rgb p /\ exists a b, 1 <= a /\ 1 <= b /\ i_w p = a * ps /\ i_h p = b * ps) ->
  exists made out, process ofbyte sub div mean std ps junk source patches = ROk made /\ pixel_values zero 3 ps (map fst made) = ROk out /\
    let hw := widest (map fst made) in
    length out = length pics * 3 * ps * hw /\ length made = length pics /\
    forall b p, nth_error pics b = Some p ->
      let nh := i_h p / ps in let nw := i_w p / ps in
      nth_error (map snd made) b = Some (nh, nw) /\ nh * nw * ps <= hw /\
      (forall c k q x, c < 3 -> k < ps -> q < nh * nw -> x < ps ->
        exists byte, pixel p ((q / nw) * ps + k) ((q mod nw) * ps + x) c = Some byte /\
          nth_error out (((b * 3 + c) * ps + k) * hw + (q * ps + x)) = normalised c byte) /\
      (forall c k x, c < 3 -> k < ps -> nh * nw * ps <= x -> x < hw -> nth_error out (((b * 3 + c) * ps + k) * hw + x) = Some zero).
Proof.
  intros ps junk source patches Hps Hm Hs Hj pics Hp.
  set (Q := fun (p : image) (y : (nat * list F) * (nat * nat)) => let nh := i_h p / ps in let nw := i_w p / ps in
     fst (fst y) = nh * nw * ps /\ snd y = (nh, nw) /\ length (snd (fst y)) = 3 * (ps * (nh * nw * ps)) /\
     forall c k yy z x, c < 3 -> k < ps -> yy < nh -> z < nw -> x < ps ->
       nth_error (snd (fst y)) (c * (ps * (nh * nw * ps)) + k * (nh * nw * ps) + (yy * nw + z) * ps + x) = option_map (fun v => norm sub div mean std c (ofbyte v)) (pixel p (yy * ps + k) (z * ps + x) c) /\
       pixel p (yy * ps + k) (z * ps + x) c <> None).
  destruct (AotProofs.map_res_ok (process_one ofbyte sub div mean std ps junk) Q pics) as (made & E & F2).
  { intros p I. destruct (Hp p I) as (Rp & a & b & Ha & Hb & Ew & Eh). destruct (process_one_ok ofbyte sub div mean std zero ps junk p b a Rp Hps Eh Ew Hm Hs Hj) as (r & E & L & V).
    eexists. split; [exact E|]. unfold Q. rewrite Eh, Ew, !Nat.div_mul by lia. cbn [fst snd]. auto. }
  assert (Fb : Forall (fun t : nat * list F => length (snd t) = 3 * (ps * fst t)) (map fst made)).
  { clear - F2. induction F2 as [|p y l l' H F2 IH]; constructor; [|exact IH]. destruct H as (A & B & C & _). cbv zeta in *. rewrite C, A. reflexivity. }
  destruct (batch_ok sub div zero 3 ps (map fst made) Fb) as (out & Eo & Lo & Vo).
  exists made, out. split; [exact E|]. split; [exact Eo|]. cbv zeta.
  assert (Ln : length made = length pics) by (clear - F2; induction F2; cbn; congruence).
  split; [rewrite Lo, map_length, Ln; reflexivity|]. split; [exact Ln|].
  intros b p Hbp. assert (Y : exists y, nth_error made b = Some y /\ Q p y).
  { clear - F2 Hbp. revert b Hbp. induction F2 as [|p0 y l l' H F2 IH]; intros [|b] Hb; try discriminate; [cbn in Hb; injection Hb as <-; exists y; auto|]. apply IH. exact Hb. }
  destruct Y as (y & Ey & Qy). destruct Qy as (Q1 & Q2 & Q3 & Q4). cbv zeta in *. set (nh := i_h p / ps) in *. set (nw := i_w p / ps) in *.
  assert (Et : nth_error (map fst made) b = Some (fst y)) by (rewrite nth_error_map, Ey; reflexivity).
  assert (Wd : nh * nw * ps <= widest (map fst made)) by (rewrite <- Q1; apply (widest_ge sub div zero); eapply nth_error_In; exact Et).
  split; [rewrite nth_error_map, Ey; cbn; rewrite Q2; reflexivity|]. split; [exact Wd|]. split.
  - intros c k q x Hc Hk Hq Hx. assert (Hw : 1 <= nw) by (destruct nw; [rewrite Nat.mul_0_r in Hq|]; lia).
    assert (Hy : q / nw < nh) by (apply Nat.div_lt_upper_bound; [lia|]; rewrite Nat.mul_comm; exact Hq). assert (Hz := Nat.mod_upper_bound q nw ltac:(lia)).
    assert (Bq : q * ps + x < nh * nw * ps) by (apply (Nat.lt_le_trans _ (S q * ps)); [cbn; lia|apply Nat.mul_le_mono_r; exact Hq]).
    destruct (Q4 c k (q / nw) (q mod nw) x Hc Hk Hy Hz Hx) as [V N]. destruct (pixel p (q / nw * ps + k) (q mod nw * ps + x) c) as [byte|] eqn:Ep; [|congruence].
    exists byte. split; [reflexivity|]. rewrite (Vo b (fst y) c k (q * ps + x) Et Hc Hk ltac:(lia)). rewrite Q1. replace (q * ps + x <? nh * nw * ps) with true by lia.
    replace (q / nw * nw + q mod nw) with q in V by (rewrite (Nat.mul_comm (q / nw)); apply Nat.div_mod; lia).
    replace ((c * ps + k) * (nh * nw * ps) + (q * ps + x)) with (c * (ps * (nh * nw * ps)) + k * (nh * nw * ps) + q * ps + x) by (rewrite Nat.mul_add_distr_r, Nat.mul_assoc; lia).
    rewrite V. cbn [option_map]. unfold norm, normalised. destruct (nth_error mean c) eqn:Em; [|apply nth_error_None in Em; lia]. destruct (nth_error std c) eqn:Es; [reflexivity|apply nth_error_None in Es; lia].
  - intros c k x Hc Hk H1 H2. rewrite (Vo b (fst y) c k x Et Hc Hk H2). rewrite Q1. replace (x <? nh * nw * ps) with false by lia. reflexivity.
Qed.
End C111.

(** ** C112: sections of the prompt and their slots *)
Lemma nth_first {A} (l : list A) i : i < length l -> exists x, nth_error l i = Some x.
Proof. intro H. destruct (nth_error l i) eqn:E; [eauto|apply nth_error_None in E; lia]. Qed.
Lemma sects_mark ids bpe pre g i x : match g with Some g => 1 <= fst g | None => True end -> nth_error (sects ids bpe pre g) i = Some x ->
  x_s x = ids (if i =? 0 then SImage else SSlice) /\ x_e x = ids (if i =? 0 then SImageEnd else SSliceEnd).
Proof.
  intros Hg H. destruct i as [|i]; [cbn in H; injection H as <-; auto|]. cbn [Nat.eqb]. cbn [sects nth_error] in H. apply nth_error_In in H. destruct g as [[c r]|]; [|destruct H]. cbn [fst snd] in *.
  apply in_flat_map in H as (j & _ & H). destruct c as [|c]; [lia|]. cbn [line_sects] in H. destruct H as [<-|H]; [destruct (0 <? j); auto|]. apply repeat_spec in H. subst x. auto.
Qed.
Theorem C112_slots : forall ids bpe n pre post g, vocabulary ids bpe -> no_sections pre ->
  match g with Some g => 1 <= fst g /\ 1 <= snd g | None => True end ->
  let tokens := tokenize ids bpe (prompt_text n pre post g) in
  exists pos : nat -> nat,
    (* section 0 is the image, the others the slices; n slots in each *)
    (forall i, i < 1 + slices g ->
       nth_error tokens (pos i) = Some (ids (if i =? 0 then SImage else SSlice)) /\
       (forall k, k < n -> nth_error tokens (pos i + 1 + k) = Some (ids SUnk)) /\
       nth_error tokens (pos i + 1 + n) = Some (ids (if i =? 0 then SImageEnd else SSliceEnd))) /\
    (* in order and without overlap; no other section begins before the last of them *)
    (forall i j, i < j -> j < 1 + slices g -> pos i + n + 1 < pos j) /\
    (forall q i s, i < 1 + slices g -> q <= pos i -> (s = SImage \/ s = SSlice) -> nth_error tokens q = Some (ids s) -> exists j, j <= i /\ q = pos j) /\
    (* the rows the vision model gave for picture i are put into the slots of section i, and nowhere else *)
    (forall R (rows : list R) vision, length rows = length tokens -> length vision = 1 + slices g -> Forall (fun v => length v = n) vision ->
       exists out, merge_vision rows vision (calc_bounds ids tokens) = ROk out /\ length out = length rows /\
         (forall i v k, nth_error vision i = Some v -> k < n -> nth_error out (pos i + 1 + k) = nth_error v k) /\
         (forall p, (forall i k, i < 1 + slices g -> k < n -> p <> pos i + 1 + k) -> nth_error out p = nth_error rows p)).
Proof.
  intros ids bpe n pre post g V P Hg0 tokens. assert (Hg : match g with Some g => 1 <= fst g | None => True end) by (destruct g; [apply Hg0|exact I]).
  set (l := sects ids bpe pre g). assert (Ln : length l = 1 + slices g) by (apply sects_len; exact Hg).
  assert (Et : tokens = [] ++ layout (ids SUnk) n l ++ tokenize ids bpe (Char 10%Z :: post)) by (apply tok_prompt; exact Hg).
  assert (Lt : forall i, i < 1 + slices g -> exists x, nth_error l i = Some x) by (intros i Hi; apply nth_first; lia).
  exists (place n 0 l).
  assert (A : forall i, i < 1 + slices g ->
       nth_error tokens (place n 0 l i) = Some (ids (if i =? 0 then SImage else SSlice)) /\
       (forall k, k < n -> nth_error tokens (place n 0 l i + 1 + k) = Some (ids SUnk)) /\
       nth_error tokens (place n 0 l i + 1 + n) = Some (ids (if i =? 0 then SImageEnd else SSliceEnd))).
  { intros i Hi. destruct (Lt i Hi) as (x & Hx). destruct (sects_mark ids bpe pre g i x Hg Hx) as [Ms Me]. rewrite <- Ms, <- Me, Et. apply layout_nth; [reflexivity|exact Hx]. }
  assert (B : forall i j, i < j -> j < 1 + slices g -> place n 0 l i + n + 2 <= place n 0 l j) by (intros i j H1 H2; apply place_mono; lia).
  split; [exact A|]. split; [intros i j H1 H2; specialize (B i j H1 H2); lia|]. split.
  - intros q i s Hi Hq Hs E.
    assert (Hu : is_start ids (ids SUnk) = false /\ is_end ids (ids SUnk) = false).
    { apply not_mark. intros s' Hs' E'. apply (proj1 V) in E'. subst s'. discriminate. }
    assert (St : is_start ids (ids s) = true) by (unfold is_start; destruct Hs as [-> | ->]; rewrite Z.eqb_refl; auto using orb_true_r).
    assert (I1 : In q (positions_from (is_start ids) 0 tokens)) by (apply positions_in; exists (ids s); rewrite Nat.sub_0_r; split; [lia|]; auto).
    rewrite Et in I1. cbn [app] in I1. rewrite positions_app in I1. destruct (layout_marks (is_start ids) (is_end ids) (ids SUnk) n Hu l 0 (sects_good ids bpe pre g V P)) as [Ep _]. rewrite Ep in I1.
    apply in_app_or in I1. destruct I1 as [I1|I1].
    + apply in_map_iff in I1 as (j & Ej & Hj). apply in_seq in Hj. exists j. split; [|symmetry; exact Ej]. destruct (Nat.le_gt_cases j i) as [X|X]; [exact X|]. specialize (B i j X ltac:(lia)). lia.
    + exfalso. apply positions_in in I1 as (x & Hx & _). destruct (A i Hi) as (_ & _ & A3).
      assert (X : place n 0 l i + 1 + n < length (layout (ids SUnk) n l)); [|lia].
      destruct (Lt i Hi) as (x0 & Hx0). destruct (layout_nth (ids SUnk) n [] l 0 [] i x0 eq_refl Hx0) as (_ & _ & Z). rewrite app_nil_r in Z. cbn [app] in Z. apply nth_error_Some. congruence.
  - intros R rows vision Lr Lv Fv. destruct (merge_ok rows vision (calc_bounds ids tokens) (place n 0 l) n Fv) as (out & E & Lo & V1 & V2).
    + intros i Hi. apply bounds_nth; [exact V|exact P|exact Hg|lia].
    + intros i Hi. destruct (A i ltac:(lia)) as (_ & _ & A3). rewrite Lr. apply nth_error_Some. congruence.
    + intros i j H1 H2. apply B; lia.
    + exists out. split; [exact E|]. split; [exact Lo|]. split.
      * intros i v k Hv Hk. assert (Lk : length v = n) by (rewrite Forall_forall in Fv; apply Fv; eapply nth_error_In; exact Hv). destruct (nth_first v k ltac:(lia)) as (r & Hr). rewrite Hr. apply (V1 i v k r Hv Hr).
      * intros p Hp. apply V2. intros i k Hi Hk. apply Hp; [lia|exact Hk].
Qed.
(** Slices of one line follow each other directly; between two lines stands the line feed. *)
Theorem C112_lines : forall ids bpe n pre post cols rows r, vocabulary ids bpe -> 1 <= cols -> r < rows ->
  let tokens := tokenize ids bpe (prompt_text n pre post (Some (cols, rows))) in
  exists o, o + cols * (n + 2) <= length tokens /\
    (forall c, c < cols -> nth_error tokens (o + c * (n + 2)) = Some (ids SSlice) /\ nth_error tokens (o + c * (n + 2) + n + 1) = Some (ids SSliceEnd)) /\
    (S r < rows -> forall k, k < length (bpe [10%Z]) -> nth_error tokens (o + cols * (n + 2) + k) = nth_error (bpe [10%Z]) k).
Proof.
  intros ids bpe n pre post cols rows r V Hc Hr tokens. set (u := ids SUnk). set (nl := bpe [10%Z]).
  assert (Lay : forall c, layout u n (repeat (plain ids) c) = concat (repeat (ids SSlice :: repeat u n ++ [ids SSliceEnd]) c)).
  { intro c. unfold layout. rewrite flat_map_concat_map. induction c as [|c IH]; [reflexivity|]. cbn [repeat map concat]. rewrite IH. reflexivity. }
  assert (Line : forall j, layout u n (line_sects ids bpe cols j) = (if 0 <? j then nl else []) ++ concat (repeat (ids SSlice :: repeat u n ++ [ids SSliceEnd]) cols)).
  { intro j. destruct cols as [|c]; [lia|]. cbn [line_sects repeat concat]. change (layout u n (?x :: ?y)) with (body u n x ++ layout u n y). rewrite Lay. unfold body. destruct (0 <? j); cbn [x_txt x_s x_e plain later app]; [fold nl; repeat (rewrite <- app_assoc; cbn [app]); reflexivity|reflexivity]. }
  assert (Sp : seq 0 rows = seq 0 r ++ r :: seq (S r) (rows - S r)).
  { replace rows with (r + S (rows - S r)) at 1 by lia. rewrite seq_app. reflexivity. }
  set (A := body u n (first_sect ids bpe pre) ++ layout u n (flat_map (line_sects ids bpe cols) (seq 0 r)) ++ (if 0 <? r then nl else [])).
  set (B := layout u n (flat_map (line_sects ids bpe cols) (seq (S r) (rows - S r))) ++ tokenize ids bpe (Char 10%Z :: post)).
  set (M := concat (repeat (ids SSlice :: repeat u n ++ [ids SSliceEnd]) cols)).
  assert (Et : tokens = A ++ M ++ B).
  { unfold tokens. rewrite tok_prompt by exact Hc. unfold sects. cbn [fst snd]. rewrite Sp, flat_map_app. cbn [flat_map]. unfold layout at 1. cbn [flat_map]. rewrite !flat_map_app. fold (layout u n). fold u.
    change (flat_map (body u n) ?x) with (layout u n x). rewrite Line. unfold A, B, M. rewrite <- !app_assoc. reflexivity. }
  assert (Lb : length (ids SSlice :: repeat u n ++ [ids SSliceEnd]) = n + 2) by (cbn [length]; rewrite app_length, repeat_length; cbn; lia).
  assert (Fm : Forall (fun x => length x = n + 2) (repeat (ids SSlice :: repeat u n ++ [ids SSliceEnd]) cols)) by (apply Forall_forall; intros x Hx; apply repeat_spec in Hx; subst; exact Lb).
  assert (LM : length M = cols * (n + 2)).
  { unfold M. rewrite <- (map_id (repeat _ cols)), <- flat_map_concat_map, (AotGraph.flat_map_len _ (n + 2)); [rewrite repeat_length; reflexivity|]. intros x Hx. rewrite Forall_forall in Fm. apply Fm, Hx. }
  exists (length A). rewrite Et. split; [rewrite !app_length, LM; lia|]. split.
  - intros c H. assert (Hb : c * (n + 2) + (n + 1) < cols * (n + 2)) by (apply (Nat.lt_le_trans _ (S c * (n + 2))); [cbn; lia|apply Nat.mul_le_mono_r; lia]).
    assert (N : forall j, j < n + 2 -> nth_error (A ++ M ++ B) (length A + c * (n + 2) + j) = nth_error (ids SSlice :: repeat u n ++ [ids SSliceEnd]) j).
    { intros j Hj. rewrite nth_error_app2 by lia. replace (length A + c * (n + 2) + j - length A) with (c * (n + 2) + j) by lia. rewrite nth_error_app1 by lia. unfold M. apply (concat_nth _ (n + 2)); [exact Fm| |exact Hj].
      rewrite (nth_error_nth' _ (ids SSlice :: repeat u n ++ [ids SSliceEnd])) by (rewrite repeat_length; exact H). rewrite nth_repeat. reflexivity. }
    split; [rewrite <- (Nat.add_0_r (length A + _)), N by lia; reflexivity|]. rewrite <- Nat.add_assoc, N by lia. replace (n + 1) with (S n) by lia. cbn [nth_error]. rewrite nth_error_app2 by (rewrite repeat_length; lia). rewrite repeat_length, Nat.sub_diag. reflexivity.
  - intros H k Hk. rewrite nth_error_app2 by lia. replace (length A + cols * (n + 2) + k - length A) with (length M + k) by lia. rewrite nth_error_app2 by lia. replace (length M + k - length M) with k by lia.
    unfold B. replace (rows - S r) with (S (rows - S (S r))) by lia. cbn [seq flat_map]. unfold layout at 1. rewrite flat_map_app. change (flat_map (body u n) (line_sects ids bpe cols (S r))) with (layout u n (line_sects ids bpe cols (S r))). rewrite Line. cbn [Nat.ltb Nat.leb]. rewrite <- !app_assoc. apply nth_error_app1. exact Hk.
Qed.
(** A begin mark in the text before the image (a system prompt is free text) moves all the rows. *)
Definition demo_ids (s : special) : Z := match s with SImage => 1 | SImageEnd => 2 | SSlice => 3 | SSliceEnd => 4 | SUnk => 5 | SIdStart => 6 | SIdEnd => 7 | SAudio => 8 | SAudioEnd => 9 | SOther k => 10 + Z.of_nat k end.
Definition demo_bpe (run : list Z) : list Z := map (fun c => - c - 1)%Z (filter (fun c => (0 <=? c)%Z) run).
Theorem C112_marks_before_refuted :
  let tokens := tokenize demo_ids demo_bpe (prompt_text 2 [Special SSlice] [] None) in
  nth_error tokens 4 = Some (demo_ids SImage) /\ nth_error tokens 5 = Some (demo_ids SUnk) /\
  exists out, merge_vision [0; 0; 0; 0; 0; 0; 0; 0; 0] [[101; 102]] (calc_bounds demo_ids tokens) = ROk out /\ nth_error out 5 <> Some 101 /\ nth_error out 1 = Some 101.
Proof. vm_compute. split; [reflexivity|]. split; [reflexivity|]. eexists. split; [reflexivity|]. split; [discriminate|reflexivity]. Qed.

(** ** C113: positions and masks *)
Theorem C113_positions : forall lth ltw n maxp nh nw, 1 <= n -> nh * nw <= maxp ->
  let ids := apply_ids (patch_mask maxp (nh, nw)) (pos_ids lth ltw n nh nw) in
  length ids = maxp /\
  (forall p, p < nh * nw -> exists i, nth_error ids p = Some i /\ i < n * n) /\
  (forall p, nh * nw <= p -> p < maxp -> nth_error ids p = Some 0) /\
  ((forall h i, lth h i = (h * n <? (i + 1) * nh)) -> (forall w i, ltw w i = (w * n <? (i + 1) * nw)) ->
   forall p, p < nh * nw -> nth_error ids p = Some (((p / nw) * n / nh) * n + (p mod nw) * n / nw)).
Proof.
  intros lth ltw n maxp nh nw Hn Hm ids. assert (E : ids = pos_ids lth ltw n nh nw ++ repeat 0 (maxp - nh * nw)) by (unfold ids, patch_mask; cbn [fst snd]; apply apply_front; [exact Hm|apply pos_ids_len]).
  rewrite E. clear E ids. assert (L := pos_ids_len lth ltw n nh nw). split; [rewrite app_length, repeat_length, L; lia|]. split; [|split].
  - intros p Hp. rewrite nth_error_app1 by lia. rewrite pos_ids_nth by exact Hp. eexists. split; [reflexivity|]. assert (A := bucket_range (lth (p / nw)) n Hn). assert (B := bucket_range (ltw (p mod nw)) n Hn).
    apply (Nat.lt_le_trans _ (S (bucket (lth (p / nw)) n) * n)); [cbn; lia|apply Nat.mul_le_mono_r; exact A].
  - intros p H1 H2. rewrite nth_error_app2 by lia. rewrite (nth_error_nth' _ 0) by (rewrite repeat_length; lia). rewrite nth_repeat. reflexivity.
  - intros Eh Ew p Hp. rewrite nth_error_app1 by lia. rewrite pos_ids_nth by exact Hp.
    assert (Hb : 1 <= nw) by (destruct nw; [rewrite Nat.mul_0_r in Hp|]; lia). assert (Hq : p / nw < nh) by (apply Nat.div_lt_upper_bound; [lia|]; rewrite Nat.mul_comm; exact Hp). assert (Hr := Nat.mod_upper_bound p nw ltac:(lia)).
    rewrite (bucket_exact n nh (p / nw)) by (auto; intros; apply Eh). rewrite (bucket_exact n nw (p mod nw)) by (auto; intros; apply Ew). reflexivity.
Qed.
(** With binary32 comparisons a row that begins exactly on a boundary falls into the bucket before it: 25 rows, 70 buckets, the
    row at 5/25 = 14/70. *)
Theorem C113_float_buckets_refuted : exists nh n h, h < nh /\ nh <= n /\ bucket (frac_lt nh n h) n <> h * n / nh.
Proof. exists 25, 70, 5. split; [lia|]. split; [lia|]. vm_compute. discriminate. Qed.

(** Attention among the patches of one picture only; no mask exactly if no picture is padded. *)
Theorem C113_mask : forall tgt, (forall t, In t tgt -> 1 <= fst t /\ 1 <= snd t) ->
  let maxp := max_patches tgt in
  (forall t, In t tgt -> fst t * snd t <= maxp) /\
  match attention_mask (map (patch_mask maxp) tgt) with
  | None => forall t, In t tgt -> fst t * snd t = maxp
  | Some m => (exists t, In t tgt /\ fst t * snd t < maxp) /\
      forall b t i j, nth_error tgt b = Some t -> i < maxp -> j < maxp ->
        exists rows row, nth_error m b = Some rows /\ nth_error rows i = Some row /\ nth_error row j = Some ((i <? fst t * snd t) && (j <? fst t * snd t))
  end.
Proof.
  intros tgt Hp maxp. assert (G : forall t, In t tgt -> fst t * snd t <= maxp) by (intros t Ht; destruct (Hp t Ht); apply max_patches_ge; assumption). split; [exact G|].
  unfold attention_mask. destruct (forallb (forallb (fun b => b)) (map (patch_mask maxp) tgt)) eqn:E.
  - intros t Ht. assert (A := proj1 (all_valid _) E (patch_mask maxp t)). specialize (G t Ht). destruct (Nat.eq_dec (fst t * snd t) maxp) as [X|X]; [exact X|]. exfalso.
    assert (B : (fst t * snd t <? fst t * snd t) = true); [|rewrite Nat.ltb_irrefl in B; discriminate]. apply A; [apply in_map; exact Ht|]. unfold patch_mask. apply in_map_iff. exists (fst t * snd t). split; [reflexivity|]. apply in_seq. lia.
  - split.
    + assert (X : existsb (fun t => fst t * snd t <? maxp) tgt = true).
      { destruct (existsb (fun t => fst t * snd t <? maxp) tgt) eqn:X; [reflexivity|]. exfalso. rewrite <- not_true_iff_false in E. apply E, all_valid. intros m b Hm Hb. apply in_map_iff in Hm as (t & <- & Ht).
        unfold patch_mask in Hb. apply in_map_iff in Hb as (j & <- & Hj). apply in_seq in Hj. assert (Y : existsb (fun t => fst t * snd t <? maxp) tgt <> true) by congruence.
        apply Nat.ltb_lt. destruct (Nat.lt_ge_cases j (fst t * snd t)) as [Z|Z]; [exact Z|]. exfalso. apply Y. apply existsb_exists. exists t. split; [exact Ht|]. apply Nat.ltb_lt. lia. }
      apply existsb_exists in X as (t & Ht & X). exists t. split; [exact Ht|]. apply Nat.ltb_lt. exact X.
    + intros b t i j Hb Hi Hj. assert (Pm : forall k, k < maxp -> nth_error (patch_mask maxp t) k = Some (k <? fst t * snd t)) by (intros k Hk; unfold patch_mask; rewrite nth_error_map_seq by exact Hk; reflexivity).
      exists (map (fun mi => map (fun mj => mi && mj) (patch_mask maxp t)) (patch_mask maxp t)), (map (fun mj => (i <? fst t * snd t) && mj) (patch_mask maxp t)).
      split; [rewrite nth_error_map, nth_error_map, Hb; reflexivity|]. split; [rewrite nth_error_map, Pm by exact Hi; reflexivity|]. rewrite nth_error_map, Pm by exact Hj. reflexivity.
Qed.

(** A history of calls of the resampler: the outputs of all calls. *)
Fixpoint calls {F} (value : nat -> nat -> nat -> F) (zero : F) (dim : nat) (hist : list (list (nat * nat))) (r : resampler) : res (list (list (list (list F) * list bool))) :=
  match hist with
  | [] => ROk []
  | tgt :: h => do x <- resample_positions value zero dim tgt r; do rest <- calls value zero dim h (fst x); ROk (snd x :: rest)
  end.
Theorem C113_resampler : forall F (value : nat -> nat -> nat -> F) zero dim first hist,
  exists outs, calls value zero dim hist (new_resampler value dim first) = ROk outs /\ length outs = length hist /\
    forall c tgt i t, nth_error hist c = Some tgt -> nth_error tgt i = Some t ->
      exists out rows mask, nth_error outs c = Some out /\ nth_error out i = Some (rows, mask) /\ length rows = patch_lens tgt /\ length mask = patch_lens tgt /\
        fst t * snd t <= patch_lens tgt /\
        (forall p d, p < fst t * snd t -> d < dim -> exists row, nth_error rows p = Some row /\ nth_error row d = Some (value (p / snd t) (p mod snd t) d)) /\
        (forall p, fst t * snd t <= p -> p < patch_lens tgt -> nth_error rows p = Some (repeat zero dim)) /\
        (forall p, p < patch_lens tgt -> nth_error mask p = Some (fst t * snd t <=? p)).
Proof.
  intros F value zero dim first hist. assert (W : whole value dim (new_resampler value dim first)) by reflexivity. revert W. generalize (new_resampler value dim first) as r.
  induction hist as [|tgt hist IH]; intros r W; cbn [calls].
  - exists []. split; [reflexivity|]. split; [reflexivity|]. intros c tgt i t H. destruct c; discriminate.
  - destruct (call_ok value zero dim tgt r W) as (r' & out & E & W' & V). rewrite E. cbn [rbind fst snd]. destruct (IH r' W') as (outs & E2 & L & V2). rewrite E2. cbn [rbind]. exists (out :: outs). split; [reflexivity|]. split; [cbn; lia|].
    intros c tg i t Hc Ht. destruct c as [|c]; [|apply (V2 c tg i t Hc Ht)]. cbn in Hc. injection Hc as <-. exists out. eexists _, _. split; [reflexivity|]. split; [apply V; exact Ht|].
    assert (B : fst t * snd t <= patch_lens tgt) by (unfold patch_lens, max_of; apply (proj2 (max_of_ge (fun t : nat * nat => fst t * snd t) tgt 0)); eapply nth_error_In; exact Ht).
    assert (Lr := rows_len value dim t). split; [unfold padded; rewrite app_length, firstn_length, repeat_length; lia|]. split; [unfold key_mask; rewrite map_length, seq_length; reflexivity|]. split; [exact B|].
    assert (Pd : forall p, nth_error (padded zero dim (patch_lens tgt) (rows_of value dim t)) p = if p <? fst t * snd t then nth_error (rows_of value dim t) p else if p <? patch_lens tgt then Some (repeat zero dim) else None)
      by (intro p; rewrite padded_nth by lia; rewrite Lr; reflexivity).
    split; [|split].
    + intros p d Hp Hd. rewrite Pd. replace (p <? fst t * snd t) with true by lia. rewrite rows_nth by exact Hp. eexists. split; [reflexivity|]. rewrite nth_error_map_seq by exact Hd. reflexivity.
    + intros p H1 H2. rewrite Pd. replace (p <? fst t * snd t) with false by lia. replace (p <? patch_lens tgt) with true by lia. reflexivity.
    + intros p Hp. unfold key_mask. rewrite nth_error_map_seq by exact Hp. cbn [Nat.add]. f_equal. destruct (fst t * snd t <=? p) eqn:X; [apply Nat.leb_le in X|apply Nat.leb_gt in X]; lia.
Qed.

(** ** C114: audio *)
Theorem C114_frames : forall len, (0 <= len <= 10485760)%Z -> (160 * (audio_frames len - 1) < len <= 160 * audio_frames len)%Z.
Proof. intros len H. rewrite frames_ok by exact H. Z.to_euclidean_division_equations; lia. Qed.
(** One slot for every four frames, at least one. A recording of at most 30 s has at most as many slots as the encoder makes
    rows of the 3000 (or 3001) frames it is always given. *)
Theorem C114_count : forall f, (0 <= f)%Z -> audio_slots f = Z.max 1 ((f + 1) / 4) /\ ((f <= 3000)%Z -> (audio_slots f <= audio_slots 3000)%Z) /\ audio_slots 3000 = 750%Z /\ audio_slots 3001 = 750%Z.
Proof.
  intros f H. rewrite slots_ok by exact H. split; [reflexivity|]. split; [|split; reflexivity]. intro L. change (audio_slots 3000) with 750%Z. Z.to_euclidean_division_equations; lia.
Qed.
Theorem C114_slots : forall ids bpe frames pre post, vocabulary ids bpe -> ~ In (Special SAudio) pre -> (0 <= frames)%Z ->
  let tokens := tokenize ids bpe (pre ++ audio_placeholder frames ++ post) in
  let n := Z.to_nat (audio_slots frames) in
  exists pos, nth_error tokens pos = Some (ids SAudio) /\ (forall k, k < n -> nth_error tokens (pos + 1 + k) = Some (ids SUnk)) /\ nth_error tokens (pos + 1 + n) = Some (ids SAudioEnd) /\
    (forall q, q < pos -> nth_error tokens q <> Some (ids SAudio)) /\
    forall R (rows audio : list R), length rows = length tokens -> n <= length audio ->
      exists out, merge_audio rows [audio] (audio_bounds ids tokens) = ROk out /\ length out = length rows /\
        (forall k, k < n -> nth_error out (pos + 1 + k) = nth_error audio k) /\
        (forall p, (p <= pos \/ pos + 1 + n <= p) -> nth_error out p = nth_error rows p).
Proof.
  intros ids bpe frames pre post V P Hf tokens n. set (T := tokenize ids bpe pre).
  assert (Et : tokens = T ++ ids SAudio :: repeat (ids SUnk) n ++ ids SAudioEnd :: tokenize ids bpe post) by (unfold tokens, audio_placeholder; apply tok_audio).
  assert (NT : forall x, In x T -> x <> ids SAudio).
  { intros x Hx. eapply tok_no_marks; [exact V| |exact Hx]. intros s Hs ->. exact (P Hs). }
  exists (length T). rewrite Et. assert (N : forall k, nth_error (T ++ ids SAudio :: repeat (ids SUnk) n ++ ids SAudioEnd :: tokenize ids bpe post) (length T + 1 + k) = nth_error (repeat (ids SUnk) n ++ ids SAudioEnd :: tokenize ids bpe post) k).
  { intro k. rewrite nth_error_app2 by lia. replace (length T + 1 + k - length T) with (S k) by lia. reflexivity. }
  split; [rewrite nth_error_app2 by lia; rewrite Nat.sub_diag; reflexivity|]. split.
  { intros k Hk. rewrite N, nth_error_app1 by (rewrite repeat_length; exact Hk). rewrite (nth_error_nth' _ (ids SUnk)) by (rewrite repeat_length; exact Hk). rewrite nth_repeat. reflexivity. }
  split; [rewrite N, nth_error_app2 by (rewrite repeat_length; lia); rewrite repeat_length, Nat.sub_diag; reflexivity|]. split.
  { intros q Hq E. rewrite nth_error_app1 in E by exact Hq. apply nth_error_In in E. exact (NT _ E eq_refl). }
  intros R rows audio Lr La. unfold audio_bounds. rewrite audio_skip by exact NT. cbn [Nat.add audio_bounds_from]. rewrite Z.eqb_refl. rewrite first_end_app.
  - cbn [app]. rewrite repeat_length. replace (S (length T)) with (length T + 1) by lia.
    match goal with |- context [audio_bounds_from ?a ?b ?c ?d] => set (more := audio_bounds_from a b c d) end. destruct (merge_audio_ok rows audio (length T + 1) n more La) as (out & E & Lo & V1 & V2).
    + rewrite Lr. rewrite app_length. cbn [length]. rewrite app_length, repeat_length. cbn [length]. lia.
    + exists out. split; [exact E|]. split; [exact Lo|]. split; [exact V1|]. intros p Hp. apply V2. lia.
  - intros x Hx. apply repeat_spec in Hx. subst x. intro E. apply (proj1 V) in E. discriminate.
Qed.
(** Any number of recordings: each fills its own section, in order, and nothing else changes. *)
Theorem C114_recordings : forall (R : Type) (rows : list R) (audio : list (list R)) (bounds : list (nat * nat)),
  length audio <= length bounds -> (forall i b, nth_error bounds i = Some b -> fst b <= snd b <= length rows) ->
  (forall i j b c, i < j -> nth_error bounds i = Some b -> nth_error bounds j = Some c -> snd b <= fst c) ->
  exists out, merge_audio rows audio bounds = ROk out /\ length out = length rows /\
    (forall i b v k, nth_error bounds i = Some b -> nth_error audio i = Some v -> k < snd b - fst b -> k < length v -> nth_error out (fst b + k) = nth_error v k) /\
    (forall p, (forall i b v, nth_error bounds i = Some b -> nth_error audio i = Some v -> ~ (fst b <= p < fst b + Nat.min (snd b - fst b) (length v))) -> nth_error out p = nth_error rows p).
Proof.
  intros R rows audio bounds Hl Hb Hd. unfold merge_audio.
  set (ws := fun i => match nth_error bounds i, nth_error audio i with Some b, Some v => copies (fst b) v 0 (Nat.min (snd b - fst b) (length v)) | _, _ => [] end).
  assert (D : does (AotModel.for_up (length audio) 0 (fun i rows => do b <- rd bounds i; do v <- rd audio i;
    AotModel.for_up (Nat.min (snd b - fst b) (length v)) 0 (fun k rows => do r <- rd v k; wr rows (fst b + k) r) rows)) (flat_map ws (seq 0 (length audio)))).
  { apply does_loop. intros i Hi. unfold ws. destruct (nth_error audio i) as [v|] eqn:Ev; [|apply nth_error_None in Ev; lia].
    destruct (nth_error bounds i) as [b|] eqn:Eb; [|apply nth_error_None in Eb; lia].
    assert (M := does_memcpy (fst b) v 0 (Nat.min (snd b - fst b) (length v)) ltac:(lia)). unfold memcpy in M. cbn [Nat.add] in M.
    eapply does_ext; [|exact M]. intro x. rewrite (rd_ok _ _ _ Eb). cbn [rbind]. rewrite (rd_ok _ _ _ Ev). reflexivity. }
  assert (I : forall p r, In (p, r) (flat_map ws (seq 0 (length audio))) -> exists i b v k, nth_error bounds i = Some b /\ nth_error audio i = Some v /\ k < snd b - fst b /\ k < length v /\ p = fst b + k /\ nth_error v k = Some r).
  { intros p r X. apply in_loop in X. destruct X as (i & Hi & X). unfold ws in X. destruct (nth_error bounds i) as [b|] eqn:Eb; [|destruct X]. destruct (nth_error audio i) as [v|] eqn:Ev; [|destruct X].
    apply copies_in in X as (k & Hk & -> & E). exists i, b, v, k. cbn [Nat.add] in E. repeat split; auto; lia. }
  destruct (put_all_ok (flat_map ws (seq 0 (length audio))) rows) as (out & E & Lo & V & O).
  - intros p r X. destruct (I p r X) as (i & b & v & k & Eb & _ & K & _ & -> & _). assert (Y := Hb i b Eb). lia.
  - intros p r r' X X'. destruct (I p r X) as (i & b & v & k & Eb & Ev & K1 & K2 & Ep & Er). destruct (I p r' X') as (i' & b' & v' & k' & Eb' & Ev' & K1' & K2' & Ep' & Er').
    assert (i = i'). { destruct (Nat.lt_trichotomy i i') as [L|[L|L]]; [|exact L|]; exfalso; [assert (Y := Hd i i' b b' L Eb Eb')|assert (Y := Hd i' i b' b L Eb' Eb)]; lia. }
    subst i'. rewrite Eb in Eb'. injection Eb' as <-. rewrite Ev in Ev'. injection Ev' as <-. assert (k = k') by lia. subst k'. congruence.
  - exists out. split; [exact (D _ _ E)|]. split; [exact Lo|]. split.
    + intros i b v k Eb Ev K1 K2. destruct (nth_error v k) as [r|] eqn:Er; [|apply nth_error_None in Er; lia]. apply V. apply in_loop. exists i. split.
      * assert (i < length audio) by (apply nth_error_Some; congruence). lia.
      * unfold ws. rewrite Eb, Ev. apply copies_in. exists k. cbn [Nat.add]. split; [lia|]. auto.
    + intros p Hp. apply O. intros r X. destruct (I p r X) as (i & b & v & k & Eb & Ev & K1 & K2 & -> & _). apply (Hp i b v Eb Ev). lia.
Qed.
(** A recording longer than 30 s has more slots than rows: 480321 samples. *)
Theorem C114_long_refuted : exists len, (len <= 10485760)%Z /\ (audio_slots 3001 < audio_slots (audio_frames len))%Z.
Proof. exists 480321%Z. split; [lia|]. rewrite frames_ok by lia. vm_compute. reflexivity. Qed.
(** The chunked placeholder: as many slots in all, at most a chunk's in each. *)
Theorem C114_chunks : forall frames fbank, (0 <= frames)%Z -> (0 <= fbank)%Z ->
  exists counts, audio_chunked frames fbank = flat_map (fun c => Special SAudio :: unks c ++ [Special SAudioEnd]) counts /\
    Forall (fun c => (1 <= Z.of_nat c <= audio_slots fbank)%Z) counts /\ Z.of_nat (list_sum counts) = audio_slots frames.
Proof.
  intros frames fbank H1 H2. unfold audio_chunked. assert (O : (1 <= audio_slots frames)%Z) by (rewrite slots_ok by exact H1; lia). assert (P : (1 <= audio_slots fbank)%Z) by (rewrite slots_ok by exact H2; lia).
  set (out := audio_slots frames) in *. set (per := audio_slots fbank) in *. clearbody out per.
  destruct (audio_chunks_ok per P (Z.to_nat (Z.quot (out + per - 1) per)) 0 out) as (cs & E & L & F & S).
  - lia.
  - rewrite Z.quot_div_nonneg by lia. rewrite Z2Nat.id by (apply Z.div_pos; lia). assert (D := Z.div_mod (out + per - 1) per ltac:(lia)). assert (M := Z.mod_pos_bound (out + per - 1) per ltac:(lia)). set (q := ((out + per - 1) / per)%Z) in *. lia.
  - exists cs. split; [exact E|]. split; [exact F|]. lia.
Qed.

(** ** The hypotheses are met *)
Definition demo_floats : floats := mkFloats (fun w h => (w * h + 99) / 100) (fun _ _ b _ => match b with None => true | _ => false end) (fun w h => (w, h)) (fun l d => l / d).
Definition demo_resize (img : image) (w h : nat) : image := mkImage w h 3 (repeat 7%Z (w * h * 3)).
Lemma C110_hypotheses : resizes demo_resize /\ sorts lt (fun g : nat * nat => 0) (f_closer demo_floats 20 10) /\
  get_sliced_grid demo_floats 9 20 10 false = Some (1, 2) /\ exists s p, slice_image demo_floats demo_resize 9 8 2 (mkImage 20 10 3 (repeat 1%Z 600)) = ROk (s, p, Some (1, 2)).
Proof.
  split; [intros img w h; split; [reflexivity|]; split; [reflexivity|]; split; [reflexivity|apply repeat_length]|]. split.
  - split; [intros; lia|]. split; [intros; lia|]. split; [intros; lia|]. split; [reflexivity|]. intros b g. cbn. split; [discriminate|lia].
  - split; [reflexivity|]. eexists _, _. vm_compute. reflexivity.
Qed.
Lemma C112_hypotheses : vocabulary demo_ids demo_bpe /\ no_sections [Char 65%Z; Special (SOther 3)] /\ 1 <= fst (2, 3) /\ ~ In (Special SAudio) [Char 65%Z; Special (SOther 3)].
Proof.
  split; [split|].
  - intros s s' E. destruct s, s'; cbn [demo_ids] in E; try reflexivity; try lia. f_equal. lia.
  - intros run x s I E. unfold demo_bpe in I. apply in_map_iff in I as (c & <- & I). apply filter_In in I as [_ I]. destruct s; cbn [demo_ids] in E; lia.
  - split; [|split; [cbn; lia|intros [H|[H|[]]]; discriminate]]. intros s [H|[H|[]]]; [discriminate|]. injection H as <-. reflexivity.
Qed.
Example C112_example : tokenize demo_ids demo_bpe (prompt_text 2 [Char 65%Z] [Char 66%Z] (Some (2, 2))) =
  [-66; 6; -49; 7; 1; 5; 5; 2; 3; 5; 5; 4; 3; 5; 5; 4; -11; 3; 5; 5; 4; 3; 5; 5; 4; -11; -67]%Z.
Proof. vm_compute. reflexivity. Qed.
Example C113_example : calls (fun h w d => (h, w, d)) (9, 9, 9) 1 [[(1, 2)]; [(2, 1); (1, 3)]; [(1, 1)]] (new_resampler (fun h w d => (h, w, d)) 1 (1, 1)) =
  ROk [[([[(0, 0, 0)]; [(0, 1, 0)]], [false; false])];
       [([[(0, 0, 0)]; [(1, 0, 0)]; [(9, 9, 9)]], [false; false; true]); ([[(0, 0, 0)]; [(0, 1, 0)]; [(0, 2, 0)]], [false; false; false])];
       [([[(0, 0, 0)]], [false])]].
Proof. vm_compute. reflexivity. Qed.
Example C114_example : audio_placeholder 5 = [Special SAudio; Special SUnk; Special SAudioEnd].
Proof. reflexivity. Qed.

Print Assumptions C110_tiles.
Print Assumptions C110_closest.
Print Assumptions C111_pixels.
Print Assumptions C112_slots.
Print Assumptions C112_lines.
Print Assumptions C112_marks_before_refuted.
Print Assumptions C113_positions.
Print Assumptions C113_float_buckets_refuted.
Print Assumptions C113_mask.
Print Assumptions C113_resampler.
Print Assumptions C114_frames.
Print Assumptions C114_count.
Print Assumptions C114_slots.
Print Assumptions C114_long_refuted.
Print Assumptions C114_chunks.
Print Assumptions C114_recordings.
