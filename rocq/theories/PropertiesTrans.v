(** C162: from the picture to the network's input. *)
From Verif Require Import Base CropModel CropSpec CropProofs PropertiesCrop TransModel.
Local Open Scope Z_scope.

(** C162: resizing by the shorter side makes that side exactly the size asked for and keeps the
    proportions to half a pixel; an explicit size is the height and width asked for. *)
Theorem C162_resize : forall resize m, resizes resize -> 0 < iw m -> 0 < ih m ->
  (forall h w, iw (resize_apply resize (Exactly h w) m) = w /\ ih (resize_apply resize (Exactly h w) m) = h) /\
  (forall s, 0 < s -> let out := resize_apply resize (Shorter s) m in
     Z.min (iw out) (ih out) = s /\
     Z.abs (2 * iw out * Z.min (ih m) (iw m) - 2 * iw m * s) <= Z.min (ih m) (iw m) /\
     Z.abs (2 * ih out * Z.min (ih m) (iw m) - 2 * ih m * s) <= Z.min (ih m) (iw m)).
Proof.
  intros resize m RS W H. split.
  - intros h w. cbn [resize_apply]. exact (RS m w h).
  - intros s S out. unfold out, resize_apply, resize_shorter. set (sh := Z.min (ih m) (iw m)). assert (P : 0 < sh) by (unfold sh; lia).
    destruct (RS m (round_div (iw m * s) sh) (round_div (ih m * s) sh)) as [-> ->].
    assert (NW := round_div_near (iw m * s) sh P). assert (NH := round_div_near (ih m * s) sh P).
    split; [|split; nia].
    assert (EX : round_div (sh * s) sh = s) by (apply round_div_exact; exact P).
    assert (GE : forall a, sh <= a -> s <= round_div (a * s) sh) by (intros a L; assert (Q := round_div_near (a * s) sh P); nia).
    destruct (Z.le_gt_cases (ih m) (iw m)) as [L|L].
    + assert (E : sh = ih m) by (unfold sh; lia). rewrite <- E, EX. assert (Q := GE (iw m) ltac:(lia)). lia.
    + assert (E : sh = iw m) by (unfold sh; lia). rewrite <- E, EX. assert (Q := GE (ih m) ltac:(lia)). lia.
Qed.

Section T.
Context {V : Type} (conv : Z -> V) (div sub : V -> V -> V) (v255 : V).

Lemma sets_out : forall B (pos : B -> Z) (val : B -> (Z -> V) -> V) L t a, (forall p, In p L -> pos p <> a) ->
  fold_left (fun t p => set t (pos p) (val p t)) L t a = t a.
Proof.
  intros B pos val L. induction L as [|p L IH]; intros t a N; [reflexivity|]. cbn [fold_left]. rewrite IH by (intros q I; apply N; right; exact I).
  unfold set. destruct (Z.eqb_spec a (pos p)) as [E|E]; [exfalso; apply (N p); [left; reflexivity|congruence]|reflexivity].
Qed.

(** Every place is written once, from what it held before or from elsewhere. *)
Lemma sets_in : forall B (pos : B -> Z) (val : B -> (Z -> V) -> V) L t p, NoDup L -> In p L ->
  (forall q, In q L -> pos q = pos p -> q = p) ->
  (forall u, u (pos p) = t (pos p) -> val p u = val p t) ->
  fold_left (fun t q => set t (pos q) (val q t)) L t (pos p) = val p t.
Proof.
  intros B pos val L. induction L as [|q L IH]; intros t p ND I U E; [destruct I|]. inversion ND as [|? ? N1 N2]. subst. cbn [fold_left].
  destruct I as [->|I].
  - rewrite sets_out; [unfold set; rewrite Z.eqb_refl; reflexivity|]. intros r Ir Er. assert (r = p) by (apply U; [right; exact Ir|exact Er]). subst r. exact (N1 Ir).
  - assert (D : pos q <> pos p) by (intros Eq; assert (q = p) by (apply U; [left; reflexivity|exact Eq]); subst q; exact (N1 I)).
    assert (K : set t (pos q) (val q t) (pos p) = t (pos p)) by (unfold set; destruct (Z.eqb_spec (pos p) (pos q)); [congruence|reflexivity]).
    rewrite IH; [apply E; exact K|exact N2|exact I|intros r Ir; apply U; right; exact Ir|].
    intros u Hu. rewrite (E u) by congruence. symmetry. apply E. exact K.
Qed.

Lemma zseq_nodup : forall n, NoDup (zseq n).
Proof. intros n. unfold zseq. apply FinFun.Injective_map_NoDup; [intros a b; lia|apply seq_NoDup]. Qed.

Lemma nodup_app : forall A (l r : list A), NoDup l -> NoDup r -> (forall x, In x l -> ~ In x r) -> NoDup (l ++ r).
Proof.
  intros A l r HL HR D. induction HL as [|x l N HL IH]; [exact HR|]. cbn [app]. constructor.
  - intros I. apply in_app_or in I. destruct I as [I|I]; [exact (N I)|exact (D x (or_introl eq_refl) I)].
  - apply IH. intros y I. apply D. right. exact I.
Qed.

Lemma fold_ext : forall A S (f g : S -> A -> S) l s, (forall s a, f s a = g s a) -> fold_left f l s = fold_left g l s.
Proof. intros A S f g l. induction l as [|a l IH]; intros s H; [reflexivity|]. cbn. rewrite H. apply IH. exact H. Qed.

Lemma prod_nodup : forall A B (l : list A) (r : list B), NoDup l -> NoDup r -> NoDup (list_prod l r).
Proof.
  intros A B l r HL HR. induction HL as [|x l N HL IH]; [constructor|]. cbn [list_prod]. apply nodup_app; [|exact IH|].
  - apply FinFun.Injective_map_NoDup; [intros a b E; congruence|exact HR].
  - intros [a b] I J. apply in_map_iff in I. destruct I as [b' [E _]]. injection E as <- _. apply in_prod_iff in J. tauto.
Qed.

Lemma fold_prod : forall A B S (f : S -> A -> B -> S) la lb s,
  fold_left (fun s a => fold_left (fun s b => f s a b) lb s) la s = fold_left (fun s p => f s (fst p) (snd p)) (list_prod la lb) s.
Proof.
  intros A B S f la lb. induction la as [|a la IH]; intros s; [reflexivity|]. cbn [fold_left list_prod]. rewrite fold_left_app, <- IH. f_equal.
  clear IH. revert s. induction lb as [|b lb IH]; intros s; [reflexivity|]. cbn. apply IH.
Qed.

(** C162: the value of channel c at row y and column x of the network's input is that of the
    picture's pixel there, scaled and normalized with the channel's mean and deviation. *)
Theorem C162_transform : forall fresh mean std m c y x, 0 <= c < 3 -> inside m x y = true ->
  transform conv div sub v255 fresh mean std m ((c * ih m + y) * iw m + x) =
  div (sub (div (conv (at_pixel m x y c)) v255) (mean c)) (std c).
Proof.
  intros fresh mean std m c y x C I. apply inside_iff in I. unfold transform, normalize.
  set (h := ih m) in *. set (w := iw m) in *.
  rewrite (fold_prod _ _ _ (fun t ch i => set t (ch * (h * w) + i) (div (sub (t (ch * (h * w) + i)) (mean ch)) (std ch)))).
  assert (E : (c * h + y) * w + x = (fun p : Z * Z => fst p * (h * w) + snd p) (c, y * w + x)) by (cbn [fst snd]; lia).
  assert (PL : 0 <= y * w + x < h * w) by nia.
  rewrite E. rewrite (sets_in _ (fun p : Z * Z => fst p * (h * w) + snd p) (fun p t => div (sub (t (fst p * (h * w) + snd p)) (mean (fst p))) (std (fst p)))).
  - cbn [fst snd]. f_equal. f_equal. unfold to_tensor. fold h. fold w. f_equal.
    replace (c * (h * w) + (y * w + x)) with ((c * h + y) * w + x) by lia.
    (* the permutation *)
    rewrite (fold_ext _ _ _ (fun p c => fold_left (fun p yx => set p ((c * h + fst yx) * w + snd yx) (image_tensor conv m ((fst yx * w + snd yx) * 3 + c))) (list_prod (zseq h) (zseq w)) p)) by (intros; apply loop2_flat).
    rewrite (fold_prod _ _ _ (fun p c yx => set p ((c * h + fst yx) * w + snd yx) (image_tensor conv m ((fst yx * w + snd yx) * 3 + c)))).
    assert (E2 : (c * h + y) * w + x = (fun p : Z * (Z * Z) => (fst p * h + fst (snd p)) * w + snd (snd p)) (c, (y, x))) by reflexivity.
    rewrite E2. rewrite (sets_in _ (fun p : Z * (Z * Z) => (fst p * h + fst (snd p)) * w + snd (snd p)) (fun p _ => image_tensor conv m ((fst (snd p) * w + snd (snd p)) * 3 + fst p))).
    + reflexivity.
    + apply prod_nodup; [|apply prod_nodup]; apply zseq_nodup.
    + apply in_prod_iff. rewrite zseq_in. split; [lia|]. apply in_grid. lia.
    + intros [c' [y' x']] J Q. apply in_prod_iff in J. destruct J as [J1 J2]. apply zseq_in in J1. apply in_grid in J2. cbn [fst snd] in Q.
      destruct (pos_inj w (c' * h + y') x' (c * h + y) x) as [Q1 ->]; [lia|lia|exact Q|].
      destruct (pos_inj h c' y' c y) as [-> ->]; [lia|lia|exact Q1|reflexivity].
    + reflexivity.
  - apply prod_nodup; apply zseq_nodup.
  - apply in_prod_iff. rewrite !zseq_in. lia.
  - intros [c' i] J Q. apply in_prod_iff in J. rewrite !zseq_in in J. cbn [fst snd] in Q.
    destruct (pos_inj (h * w) c' i c (y * w + x)) as [-> ->]; [lia|lia|exact Q|reflexivity].
  - intros u Hu. cbn [fst snd] in *. rewrite Hu. reflexivity.
Qed.
End T.

(** The hypotheses are met: a picture of 2 by 3 pixels, on integers. *)
Example C162_hypotheses :
  let m := mkImage 3 2 (fun i => i) in
  inside m 2 1 = true /\ at_pixel m 2 1 1 = 16 /\
  transform (fun v => v * 510) Z.div Z.sub 255 (fun _ => 0) (fun _ => 2) (fun c => c + 1) m ((1 * 2 + 1) * 3 + 2) = 15 /\
  iw (resize_apply nearest (Shorter 4) m) = 6.
Proof. vm_compute. repeat split. Qed.
Print Assumptions C162_resize.
Print Assumptions C162_transform.

