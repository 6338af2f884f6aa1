(** Slicing: grids, sizes and the tiling. *)
From Verif Require Import Base DTypeModel ParamModel TensorModel VlModel VlProofs CpmModel CpmSpec.
From Verif Require AotModel AotProofs AotGraph.
Local Open Scope nat_scope.

Lemma grids_in : forall s g, In g (grids_of s) <-> fst g * snd g = s /\ 1 <= fst g /\ 1 <= snd g.
Proof.
  intros s [a b]. unfold grids_of. rewrite in_flat_map. cbn [fst snd]. split.
  - intros (m & Hm & H). apply in_seq in Hm. destruct (s mod m =? 0) eqn:E; [|destruct H]. destruct H as [H|[]]. injection H as <- <-.
    apply Nat.eqb_eq in E. assert (X := Nat.div_mod s m ltac:(lia)). split; [lia|]. split; [lia|]. apply Nat.div_le_lower_bound; lia.
  - intros (E & Ha & Hb). exists a. split; [apply in_seq; nia|]. assert (s mod a = 0) as -> by (rewrite <- E, Nat.mul_comm; apply Nat.mod_mul; lia).
    cbn. left. f_equal. rewrite <- E, Nat.mul_comm. apply Nat.div_mul. lia.
Qed.
Lemma candidates_in : forall maxs m g, In g (candidates maxs m) <->
  exists n, (n = m - 1 \/ n = m \/ n = m + 1) /\ 1 < n <= maxs /\ fst g * snd g = n /\ 1 <= fst g /\ 1 <= snd g.
Proof.
  intros maxs m g. unfold candidates. rewrite in_flat_map. split.
  - intros (n & Hn & H). apply filter_In in Hn. destruct Hn as [Hn Hb]. apply grids_in in H. exists n. cbn in Hn. split; [intuition|]. split; [lia|]. exact H.
  - intros (n & Hn & Hb & H). exists n. split; [apply filter_In; split; [cbn; intuition|lia]|]. apply grids_in. exact H.
Qed.
Lemma pick_in : forall (closer : option (nat * nat) -> nat * nat -> bool) l st, let r := fold_left (fun st g => if closer (snd st) g then (g, Some g) else st) l st in
  In (fst r) l \/ fst r = fst st.
Proof.
  intros closer l. induction l as [|g l IH]; intros st; cbn [fold_left]; [right; reflexivity|]. cbv zeta.
  destruct (IH (if closer (snd st) g then (g, Some g) else st)) as [H|H]; [left; right; exact H|]. cbv zeta in H. rewrite H.
  destruct (closer (snd st) g); [left; left; reflexivity|right; reflexivity].
Qed.
Lemma pick_best : forall {E} (lt : E -> E -> Prop) err closer, sorts lt err closer -> forall l b,
  let r := fst (fold_left (fun st g => if closer (snd st) g then (g, Some g) else st) l (b, Some b)) in
  (forall g, In g (b :: l) -> ~ lt (err g) (err r)) /\ In r (b :: l).
Proof.
  intros E lt err closer (Irr & T & N & _ & S). induction l as [|g l IH]; intro b; cbv zeta.
  - cbn. split; [|left; reflexivity]. intros g [<-|[]]. apply Irr.
  - cbn [fold_left snd]. destruct (closer (Some b) g) eqn:C.
    + apply S in C. destruct (IH g) as [A B]. split.
      * intros x [<-|Hx]; [|apply A; exact Hx]. intro L. apply (A g (or_introl eq_refl)). eapply T; eauto.
      * right. exact B.
    + destruct (IH b) as [A B]. split.
      * intros x [<-|[<-|Hx]]; [apply A; left; reflexivity| |apply A; right; exact Hx]. intro L.
        destruct (N _ _ (err b) L) as [L1|L1]; [|apply (A b (or_introl eq_refl)); exact L1].
        apply S in L1. congruence.
      * destruct B as [B|B]; [left; exact B|right; right; exact B].
Qed.

(** ** Sizes *)
Lemma ensure_ok : forall fl l d, exists k, 1 <= k /\ ensure_divide fl l d = k * d.
Proof.
  intros fl l d. unfold ensure_divide. exists (Nat.max (f_round fl l d) 1). split; [lia|]. rewrite <- Nat.mul_max_distr_r, Nat.mul_1_l. reflexivity.
Qed.
Lemma resize_ok : forall fl scale ps w h allow, exists a b, 1 <= a /\ 1 <= b /\ find_best_resize fl scale ps w h allow = (a * ps, b * ps).
Proof.
  intros. unfold find_best_resize. cbv zeta. destruct (ensure_ok fl (fst (if (scale * scale <? w * h) || allow then f_fit fl w h else (w, h))) ps) as (a & Ha & ->).
  destruct (ensure_ok fl (snd (if (scale * scale <? w * h) || allow then f_fit fl w h else (w, h))) ps) as (b & Hb & ->). exists a, b. auto.
Qed.
Lemma refine_ok : forall fl scale ps w h g, 1 <= fst g -> 1 <= snd g ->
  exists a b, 1 <= a /\ 1 <= b /\ get_refine_size fl scale ps w h g = ROk (a * ps * fst g, b * ps * snd g).
Proof.
  intros fl scale ps w h g H1 H2. unfold get_refine_size. rewrite !ndiv_ok by lia. cbn [rbind]. cbv zeta.
  destruct (resize_ok fl scale ps (ensure_divide fl w (fst g) / fst g) (ensure_divide fl h (snd g) / snd g) true) as (a & b & Ha & Hb & ->).
  exists a, b. auto.
Qed.

(** ** memcpy *)
Definition copies {A} (off : nat) (src : list A) (soff n : nat) : list (nat * A) :=
  flat_map (fun k => match nth_error src (soff + k) with Some v => [(off + k, v)] | None => [] end) (seq 0 n).
Lemma does_memcpy : forall {A} off (src : list A) soff n, soff + n <= length src -> does (fun b => memcpy b off src soff n) (copies off src soff n).
Proof.
  intros A off src soff n H. unfold memcpy, copies. apply does_loop. intros k Hk. destruct (nth_error src (soff + k)) as [v|] eqn:E.
  - apply does_ext with (g := fun b => wr b (off + k) v); [|apply does_one]. intro b. rewrite (rd_ok _ _ _ E). reflexivity.
  - apply nth_error_None in E. lia.
Qed.
Lemma copies_in : forall {A} off (src : list A) soff n p v, In (p, v) (copies off src soff n) <->
  exists k, k < n /\ p = off + k /\ nth_error src (soff + k) = Some v.
Proof.
  intros A off src soff n p v. unfold copies. rewrite in_loop. split.
  - intros (k & Hk & H). destruct (nth_error src (soff + k)) as [x|] eqn:E; [|destruct H]. destruct H as [H|[]]. injection H as <- <-. exists k. split; [lia|]. auto.
  - intros (k & Hk & -> & E). exists k. split; [lia|]. rewrite E. left. reflexivity.
Qed.
(** Writes given by a function of the place. *)
Lemma put_fun : forall {A} (ws : list (nat * A)) b (f : nat -> option A),
  (forall p v, In (p, v) ws -> p < length b /\ f p = Some v) -> (forall p, p < length b -> f p <> None /\ exists v, In (p, v) ws) ->
  exists b', put_all ws b = ROk b' /\ length b' = length b /\ forall p, p < length b -> nth_error b' p = f p.
Proof.
  intros A ws b f Hw Hc. destruct (put_all_ok ws b) as (b' & E & L & V & _).
  - intros p v I. apply (Hw p v I).
  - intros p v v' I I'. apply Hw in I, I'. destruct I as [_ I], I' as [_ I']. congruence.
  - exists b'. split; [exact E|]. split; [exact L|]. intros p Hp. destruct (Hc p Hp) as [_ [v I]]. rewrite (V p v I). symmetry. apply (Hw p v I).
Qed.

(** ** Cropping *)
Lemma flat3 : forall x c n w y h, x < w -> c < n -> y < h -> (y * w + x) * n + c < w * h * n.
Proof. intros. assert (A := index_bound y x h w ltac:(lia) ltac:(lia)). assert (B := index_bound (y * w + x) c (h * w) n ltac:(lia) ltac:(lia)). replace (w * h * n) with (h * w * n) by lia. exact B. Qed.
Lemma crop_ok : forall img x y cw ch, rgb img -> 1 <= cw -> 1 <= ch -> x + cw <= i_w img -> y + ch <= i_h img ->
  exists o, crop_image img x y cw ch = ROk o /\ i_w o = cw /\ i_h o = ch /\ rgb o /\
    forall v u c, v < ch -> u < cw -> c < 3 -> pixel o v u c = pixel img (y + v) (x + u) c.
Proof.
  intros img x y cw ch [C L] Hw Hh Hx Hy. unfold crop_image. rewrite !(Nat.min_l x) by lia. rewrite !(Nat.min_l y) by lia. rewrite !(Nat.min_l cw) by lia. rewrite !(Nat.min_l ch) by lia.
  cbv zeta. rewrite C. set (W := i_w img) in *. set (D := i_data img) in *.
  assert (B : forall row, row < ch -> ((y + row) * W + x) * 3 + cw * 3 <= length D).
  { intros row Hr. assert (A := index_bound (y + row) (x + cw - 1) (i_h img) W ltac:(lia) ltac:(lia)). lia. }
  assert (Dd := does_loop (fun row d => memcpy d (row * cw * 3) D (((y + row) * W + x) * 3) (cw * 3)) (fun row => copies (row * cw * 3) D (((y + row) * W + x) * 3) (cw * 3)) ch 0
     ltac:(intros row Hr; apply does_memcpy, B; lia)).
  destruct (put_fun (flat_map (fun row => copies (row * cw * 3) D (((y + row) * W + x) * 3) (cw * 3)) (seq 0 ch)) (repeat 0%Z (cw * ch * 3))
     (fun p => nth_error D (((y + p / (cw * 3)) * W + x) * 3 + p mod (cw * 3)))) as (d & E & Ld & V).
  - intros p v I. apply in_loop in I as (row & Hr & I). apply copies_in in I as (k & Hk & -> & Hv). rewrite repeat_length.
    replace (row * cw * 3 + k) with (row * (cw * 3) + k) by lia. split; [assert (X := index_bound row k ch (cw * 3) ltac:(lia) Hk); lia|].
    rewrite div_mul_add, mod_mul_add by exact Hk. exact Hv.
  - intros p Hp. rewrite repeat_length in Hp. destruct (index_split p ch (cw * 3)) as (row & k & Hr & Hk & ->); [lia|].
    rewrite div_mul_add, mod_mul_add by exact Hk. assert (S := B row Hr).
    destruct (nth_error D (((y + row) * W + x) * 3 + k)) as [v|] eqn:Ev; [|apply nth_error_None in Ev; lia]. split; [discriminate|].
    exists v. apply in_loop. exists row. split; [lia|]. apply copies_in. exists k. split; [exact Hk|]. split; [lia|exact Ev].
  - rewrite (Dd _ _ E). cbn [rbind]. eexists. split; [reflexivity|]. cbn [i_w i_h i_c i_data]. split; [reflexivity|]. split; [reflexivity|].
    rewrite repeat_length in Ld, V. split; [split; [reflexivity|exact Ld]|].
    intros v u c Hv Hu Hc. unfold pixel. cbn [i_w i_h i_c i_data]. fold W D. rewrite C.
    replace ((v <? ch) && (u <? cw) && (c <? 3)) with true by lia. replace ((y + v <? i_h img) && (x + u <? W) && (c <? 3)) with true by lia.
    rewrite V by (apply flat3; assumption). replace ((v * cw + u) * 3 + c) with (v * (cw * 3) + (u * 3 + c)) by lia.
    rewrite div_mul_add, mod_mul_add by lia. f_equal. lia.
Qed.

(** ** The loops *)
Lemma stepping_ok : forall {X} (f : nat -> res X) (P : nat -> X -> Prop) step n k fuel, 1 <= step -> n <= fuel ->
  (forall i, k <= i < k + n -> exists x, f (i * step) = ROk x /\ P i x) ->
  exists l, stepping fuel (k * step) ((k + n) * step) step f = ROk l /\ length l = n /\ forall i, i < n -> exists x, nth_error l i = Some x /\ P (k + i) x.
Proof.
  intros X f P step n. induction n as [|n IH]; intros k fuel Hs Hf H.
  - exists []. split; [|split; [reflexivity|intros i Hi; lia]]. rewrite Nat.add_0_r. destruct fuel; cbn [stepping]; rewrite Nat.ltb_irrefl; reflexivity.
  - destruct fuel as [|fuel]; [lia|]. cbn [stepping]. replace (k * step <? (k + S n) * step) with true by (symmetry; apply Nat.ltb_lt; nia).
    destruct (H k ltac:(lia)) as (x & Ex & Px). rewrite Ex. cbn [rbind].
    destruct (IH (S k) fuel Hs ltac:(lia)) as (l & El & Ll & Vl); [intros i Hi; apply H; lia|].
    replace (k * step + step) with (S k * step) by lia. replace (k + S n) with (S k + n) by lia. rewrite El. cbn [rbind].
    exists (x :: l). split; [reflexivity|]. split; [cbn; lia|]. intros [|i] Hi; [exists x; rewrite Nat.add_0_r; auto|].
    destruct (Vl i ltac:(lia)) as (z & Ez & Pz). exists z. split; [exact Ez|]. replace (k + S i) with (S k + i) by lia. exact Pz.
Qed.
(** Every slice shows its part of the image. *)
Definition shows (img : image) (sw sh : nat) (ri ci : nat) (o : image) : Prop :=
  i_w o = sw /\ i_h o = sh /\ rgb o /\ forall v u c, v < sh -> u < sw -> c < 3 -> pixel o v u c = pixel img (ri * sh + v) (ci * sw + u) c.
Lemma split_ok : forall img cols rows sw sh, rgb img -> 1 <= cols -> 1 <= rows -> 1 <= sw -> 1 <= sh -> i_w img = cols * sw -> i_h img = rows * sh ->
  exists ps, split_to_patches img (cols, rows) = ROk ps /\ length ps = rows /\
    forall r, r < rows -> exists line, nth_error ps r = Some line /\ length line = cols /\
      forall c, c < cols -> exists o, nth_error line c = Some o /\ shows img sw sh r c o.
Proof.
  intros img cols rows sw sh Hr Hc1 Hr1 Hw Hh Ew Eh. unfold split_to_patches. cbn [fst snd]. rewrite !ndiv_ok by lia. cbn [rbind]. rewrite Ew, Eh.
  replace (cols * sw / cols) with sw by (rewrite Nat.mul_comm; symmetry; apply Nat.div_mul; lia).
  replace (rows * sh / rows) with sh by (rewrite Nat.mul_comm; symmetry; apply Nat.div_mul; lia).
  assert (Inner : forall i, 0 <= i < 0 + rows -> exists line,
    stepping (S (cols * sw)) 0 (cols * sw) sw (fun j => crop_image img j (i * sh) (Nat.min sw (cols * sw - j)) (Nat.min sh (rows * sh - i * sh))) = ROk line /\
    (length line = cols /\ forall c, c < cols -> exists o, nth_error line c = Some o /\ shows img sw sh i c o)).
  { intros i Hi.
    destruct (stepping_ok (fun j => crop_image img j (i * sh) (Nat.min sw (cols * sw - j)) (Nat.min sh (rows * sh - i * sh))) (fun c o => shows img sw sh i c o) sw cols 0 (S (cols * sw)) Hw ltac:(nia)) as (l & El & Ll & Vl).
    - intros c Hc. assert (A : c * sw + sw <= cols * sw) by (replace (c * sw + sw) with ((c + 1) * sw) by lia; apply Nat.mul_le_mono_r; lia).
      assert (B : i * sh + sh <= rows * sh) by (replace (i * sh + sh) with ((i + 1) * sh) by lia; apply Nat.mul_le_mono_r; lia).
      rewrite !Nat.min_l by lia. destruct (crop_ok img (c * sw) (i * sh) sw sh Hr Hw Hh ltac:(lia) ltac:(lia)) as (o & Eo & Wo & Ho & Ro & Po).
      exists o. split; [exact Eo|]. split; [exact Wo|]. split; [exact Ho|]. split; [exact Ro|exact Po].
    - exists l. cbn [Nat.mul Nat.add] in El. split; [exact El|]. split; [exact Ll|]. intros c Hc. apply (Vl c Hc). }
  destruct (stepping_ok (fun i => stepping (S (cols * sw)) 0 (cols * sw) sw (fun j => crop_image img j i (Nat.min sw (cols * sw - j)) (Nat.min sh (rows * sh - i))))
     (fun i line => length line = cols /\ forall c, c < cols -> exists o, nth_error line c = Some o /\ shows img sw sh i c o) sh rows 0 (S (rows * sh)) Hh ltac:(nia) Inner) as (l & El & Ll & Vl).
  exists l. cbn [Nat.mul Nat.add] in El. split; [exact El|]. split; [exact Ll|]. intros r Hr'. destruct (Vl r Hr') as (line & E1 & E2 & E3). exists line. auto.
Qed.
