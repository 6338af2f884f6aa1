(** C159: the page's features in the prompt of DeepSeek-OCR. *)
From Verif Require Import Base OcrModel OcrProofs.

Lemma newlines_len : forall F (nl : F) rows cols l, length l = rows * cols -> length (with_newlines nl rows cols l) = rows * (cols + 1).
Proof.
  intros F nl rows cols l H. unfold with_newlines. rewrite (flat_len _ _ _ _ (cols + 1)); [rewrite seq_length; reflexivity|].
  intros y I. apply in_seq in I. rewrite app_length, piece_len; [reflexivity|]. nia.
Qed.

Lemma rows_len : forall F hc wc h2 w2 (l : list F), length l = hc * wc * (h2 * w2) -> length (tiles_to_rows hc wc h2 w2 l) = hc * h2 * (wc * w2).
Proof.
  intros F hc wc h2 w2 l H. unfold tiles_to_rows. rewrite (flat_len _ _ _ _ (h2 * (wc * w2))); [rewrite seq_length; lia|].
  intros a Ia. apply in_seq in Ia. rewrite (flat_len _ _ _ _ (wc * w2)); [rewrite seq_length; reflexivity|].
  intros r Ir. apply in_seq in Ir. rewrite (flat_len _ _ _ _ w2); [rewrite seq_length; reflexivity|].
  intros b Ib. apply in_seq in Ib. apply piece_len. rewrite H.
  assert (a * wc + b < hc * wc) by nia. assert ((a * wc + b) * h2 + r < hc * wc * h2) by nia. nia.
Qed.

Lemma tokens_len : forall nb nq wc hc, length (image_tokens nb nq wc hc) =
  nb * (nb + 1) + 1 + (if (1 <? wc) || (1 <? hc) then nq * hc * (nq * wc + 1) else 0).
Proof.
  intros. unfold image_tokens. rewrite !app_length. rewrite (flat_len _ _ _ _ (nb + 1)) by (intros; rewrite app_length, repeat_length; reflexivity).
  rewrite seq_length. destruct ((1 <? wc) || (1 <? hc)); [|cbn [length]; lia].
  rewrite (flat_len _ _ _ _ (nq * wc + 1)) by (intros; rewrite app_length, repeat_length; reflexivity). rewrite seq_length. cbn [length]. lia.
Qed.

(** C159: there are exactly as many places for the image in the prompt as rows of features,
    if the tiles are taken into account exactly when there are several. *)
Theorem C159_count : forall F (nl sep : F) nb nq wc hc page tiles,
  length page = nb * nb -> length tiles = hc * wc * (nq * nq) ->
  length (features nl sep ((1 <? wc) || (1 <? hc)) nb nq wc hc page tiles) = length (image_tokens nb nq wc hc).
Proof.
  intros F nl sep nb nq wc hc page tiles P T. rewrite tokens_len. unfold features. rewrite !app_length, (newlines_len _ _ _ _ _ P).
  destruct ((1 <? wc) || (1 <? hc)); cbn [length]; [|lia]. rewrite newlines_len by (rewrite rows_len by exact T; lia). lia.
Qed.

(** C159: the rows of features are the page read in lines: in line Y (counted in features
    over the whole grid) and column X stands the feature of the tile and the place there,
    then a newline; after the tiles the small view of the page likewise; last the separator. *)
Theorem C159_layout : forall F (nl sep d : F) nb nq wc hc page tiles, 0 < nq ->
  length page = nb * nb -> length tiles = hc * wc * (nq * nq) ->
  let fs := features nl sep true nb nq wc hc page tiles in
  let local := hc * nq * (wc * nq + 1) in
  (forall Y X, Y < hc * nq -> X < wc * nq ->
     nth (Y * (wc * nq + 1) + X) fs d = nth ((Y / nq * wc + X / nq) * (nq * nq) + Y mod nq * nq + X mod nq) tiles d) /\
  (forall Y, Y < hc * nq -> nth (Y * (wc * nq + 1) + wc * nq) fs d = nl) /\
  (forall Y X, Y < nb -> X < nb -> nth (local + Y * (nb + 1) + X) fs d = nth (Y * nb + X) page d) /\
  (forall Y, Y < nb -> nth (local + Y * (nb + 1) + nb) fs d = nl) /\
  nth (local + nb * (nb + 1)) fs d = sep.
Proof.
  intros F nl sep d nb nq wc hc page tiles Q P T fs local.
  set (big := tiles_to_rows hc wc nq nq tiles).
  assert (LB : length big = hc * nq * (wc * nq)) by (apply rows_len; exact T).
  assert (L1 : length (with_newlines nl (hc * nq) (wc * nq) big) = local) by (apply newlines_len; exact LB).
  assert (L2 : length (with_newlines nl nb nb page) = nb * (nb + 1)) by (apply newlines_len; exact P).
  assert (LINE : forall rows cols l Y X, length l = rows * cols -> Y < rows -> X <= cols ->
    nth (Y * (cols + 1) + X) (with_newlines nl rows cols l) d = if X <? cols then nth (Y * cols + X) l d else nl).
  { intros rows cols l Y X HL HY HX. unfold with_newlines. rewrite (flat_nth _ _ rows 0 (cols + 1)); [|intros a Ha; rewrite app_length, piece_len; [reflexivity|nia]|exact HY|lia].
    cbn [Nat.add]. assert (PL : length (firstn cols (skipn (Y * cols) l)) = cols) by (apply piece_len; nia).
    destruct (Nat.ltb_spec X cols) as [K|K]; [rewrite app_nth1 by lia; apply piece_nth; exact K|].
    rewrite app_nth2 by lia. rewrite PL. replace (X - cols) with 0 by lia. reflexivity. }
  assert (A1 : forall k, k < local -> nth k fs d = nth k (with_newlines nl (hc * nq) (wc * nq) big) d).
  { intros k K. unfold fs, features. apply app_nth1. fold big. lia. }
  assert (A2 : forall k, nth (local + k) fs d = nth k (with_newlines nl nb nb page ++ [sep]) d).
  { intros k. unfold fs, features. fold big. rewrite app_nth2 by lia. f_equal. lia. }
  split; [|split; [|split; [|split]]].
  - intros Y X HY HX. rewrite A1 by (unfold local; nia). rewrite LINE by (exact LB || exact HY || lia).
    destruct (Nat.ltb_spec X (wc * nq)) as [_|K]; [|lia].
    assert (DY := Nat.div_mod Y nq ltac:(lia)). assert (MY := Nat.mod_upper_bound Y nq ltac:(lia)).
    assert (DX := Nat.div_mod X nq ltac:(lia)). assert (MX := Nat.mod_upper_bound X nq ltac:(lia)).
    assert (QY : Y / nq < hc) by (apply Nat.div_lt_upper_bound; lia). assert (QX : X / nq < wc) by (apply Nat.div_lt_upper_bound; lia).
    set (a := Y / nq) in *. set (r := Y mod nq) in *. set (b := X / nq) in *. set (c := X mod nq) in *.
    assert (PC : forall a b r, a < hc -> b < wc -> r < nq -> ((a * wc + b) * nq + r) * nq + nq <= length tiles).
    { clear - T Q. intros a b r Ha Hb Hr. rewrite T. assert (a * wc + b < hc * wc) by nia. assert ((a * wc + b) * nq + r < hc * wc * nq) by nia. nia. }
    replace (Y * (wc * nq) + X) with (a * (nq * (wc * nq)) + (r * (wc * nq) + (b * nq + c))) by nia.
    assert (S1 : b * nq + c < wc * nq) by nia. assert (S2 : r * (wc * nq) + (b * nq + c) < nq * (wc * nq)) by nia.
    unfold big, tiles_to_rows.
    rewrite (flat_nth _ _ hc 0 (nq * (wc * nq))); [|clear - PC; intros a' Ha|exact QY|exact S2].
    2:{ rewrite (flat_len _ _ _ _ (wc * nq)); [rewrite seq_length; reflexivity|]. intros r' Ir. apply in_seq in Ir.
        rewrite (flat_len _ _ _ _ nq); [rewrite seq_length; reflexivity|]. intros b' Ib. apply in_seq in Ib. apply piece_len. apply PC; lia. }
    cbn [Nat.add]. rewrite (flat_nth _ _ nq 0 (wc * nq)); [|clear - PC QY; intros r' Hr|exact MY|exact S1].
    2:{ rewrite (flat_len _ _ _ _ nq); [rewrite seq_length; reflexivity|]. intros b' Ib. apply in_seq in Ib. apply piece_len. apply PC; lia. }
    cbn [Nat.add]. rewrite (flat_nth _ _ wc 0 nq); [|clear - PC QY MY; intros b' Hb|exact QX|exact MX].
    2:{ apply piece_len. apply PC; lia. }
    cbn [Nat.add]. rewrite piece_nth by exact MX. f_equal. lia.
  - intros Y HY. rewrite A1 by (unfold local; nia). rewrite LINE by (exact LB || exact HY || lia). rewrite Nat.ltb_irrefl. reflexivity.
  - intros Y X HY HX. replace (local + Y * (nb + 1) + X) with (local + (Y * (nb + 1) + X)) by lia. rewrite A2, app_nth1 by (rewrite L2; nia).
    rewrite LINE by (exact P || exact HY || lia). destruct (Nat.ltb_spec X nb) as [_|K]; [reflexivity|lia].
  - intros Y HY. replace (local + Y * (nb + 1) + nb) with (local + (Y * (nb + 1) + nb)) by lia. rewrite A2, app_nth1 by (rewrite L2; nia).
    rewrite LINE by (exact P || exact HY || lia). rewrite Nat.ltb_irrefl. reflexivity.
  - rewrite A2, app_nth2 by lia. rewrite L2, Nat.sub_diag. reflexivity.
Qed.

Lemma mask_nth : forall before after nb nq wc hc s,
  let K := length (image_tokens nb nq wc hc) in
  nth s (prompt_mask before after nb nq wc hc) false = (S (length before) <=? s) && (s <? S (length before) + K).
Proof.
  intros before after nb nq wc hc s K. unfold prompt_mask. set (tk := image_tokens nb nq wc hc) in *. fold K.
  assert (ALL : forall A (l : list A) i b, nth i (map (fun _ => b) l) false = if i <? length l then b else false).
  { intros A l i b. revert i. induction l as [|x l IH]; intros i; destruct i; try reflexivity. cbn [map nth length]. rewrite IH. reflexivity. }
  destruct s as [|s]; [reflexivity|]. cbn [nth]. destruct (Nat.ltb_spec s (length before)) as [H|H].
  - rewrite app_nth1 by (rewrite map_length; exact H). rewrite ALL. destruct (s <? length before); destruct (Nat.leb_spec (S (length before)) (S s)); try lia; reflexivity.
  - rewrite app_nth2 by (rewrite map_length; exact H). rewrite map_length. destruct (Nat.leb_spec (S (length before)) (S s)); [|lia]. cbn [andb].
    destruct (Nat.ltb_spec (S s) (S (length before) + K)) as [H1|H1].
    + rewrite app_nth1 by (rewrite map_length; fold K; lia). rewrite ALL. fold K. destruct (Nat.ltb_spec (s - length before) K); [reflexivity|lia].
    + rewrite app_nth2 by (rewrite map_length; fold K; lia). rewrite ALL. destruct (_ <? _); reflexivity.
Qed.

(** C159: what the prompt looks like after the scatter when the numbers agree: text keeps its
    embeddings, every row of features is at exactly one of the image's places - but at place k
    of the image stands row (p + k) mod K, p being the image's position in the prompt. *)
Theorem C159_placed_partial : forall F (sep : F) emb before after nb nq wc hc fs,
  length emb = length (prompt_ids before after nb nq wc hc) ->
  let K := length (image_tokens nb nq wc hc) in
  length fs = K ->
  let p := S (length before) in
  let out := scatter sep emb (prompt_mask before after nb nq wc hc) fs in
  length out = length emb /\
  (forall s, s < length emb -> s < p \/ p + K <= s -> nth_error out s = nth_error emb s) /\
  (forall k, k < K -> nth_error out (p + k) = nth_error fs ((p + k) mod K)) /\
  (forall r, r < K -> exists k, k < K /\ (p + k) mod K = r /\ forall k', k' < K -> (p + k') mod K = r -> k' = k).
Proof.
  intros F sep emb before after nb nq wc hc fs LE K LF p out.
  assert (KP : 0 < K) by (unfold K; rewrite tokens_len; lia).
  assert (LO : length out = length emb) by (unfold out, scatter; rewrite map_length, seq_length; reflexivity).
  assert (LN : length emb = S (length before) + K + length after).
  { rewrite LE. unfold prompt_ids. cbn [length]. rewrite !app_length. fold K. lia. }
  assert (AT : forall s, s < length emb -> nth_error out s =
    Some (if nth s (prompt_mask before after nb nq wc hc) false then nth (s mod K) fs sep else nth s emb sep)).
  { intros s H. unfold out, scatter. rewrite nth_error_map, (nth_error_nth' _ O) by (rewrite seq_length; exact H).
    rewrite seq_nth by exact H. cbn [option_map Nat.add]. rewrite LF. reflexivity. }
  split; [exact LO|]. split; [|split].
  - intros s H N. rewrite AT by exact H. rewrite mask_nth. fold K. fold p.
    assert (Fa : (p <=? s) && (s <? p + K) = false) by (destruct (Nat.leb_spec p s), (Nat.ltb_spec s (p + K)); try reflexivity; lia).
    rewrite Fa. symmetry. apply nth_error_nth'. exact H.
  - intros k H. rewrite AT by (unfold p; lia). rewrite mask_nth. fold K. fold p.
    assert (Tr : (p <=? p + k) && (p + k <? p + K) = true) by (destruct (Nat.leb_spec p (p + k)), (Nat.ltb_spec (p + k) (p + K)); try reflexivity; lia).
    rewrite Tr. symmetry. apply nth_error_nth'. rewrite LF. apply Nat.mod_upper_bound. lia.
  - intros r H. assert (M := Nat.mod_upper_bound p K ltac:(lia)). assert (D := Nat.div_mod p K ltac:(lia)).
    assert (UN : forall q k, k < K -> p + k = K * q + r -> (p + k) mod K = r).
    { intros q k _ E. symmetry. apply (Nat.mod_unique _ _ q); [exact H|exact E]. }
    assert (EX : exists k, k < K /\ (p + k) mod K = r).
    { destruct (Nat.le_gt_cases (p mod K) r) as [C|C].
      - exists (r - p mod K). split; [lia|]. apply (UN (p / K)); lia.
      - exists (r + K - p mod K). split; [lia|]. apply (UN (S (p / K))); lia. }
    destruct EX as [k [K1 K2]]. exists k. split; [exact K1|]. split; [exact K2|]. intros k' K3 K4.
    assert (D1 := Nat.div_mod (p + k) K ltac:(lia)). assert (D2 := Nat.div_mod (p + k') K ltac:(lia)). rewrite K2 in D1. rewrite K4 in D2.
    assert ((p + k) / K = (p + k') / K) by nia. lia.
Qed.

(** C159: with different rows the order at the image's places is the order of the rows exactly
    when the image's position in the prompt is a multiple of the number of rows. *)
Theorem C159_in_order_partial : forall F (sep : F) emb before after nb nq wc hc fs,
  length emb = length (prompt_ids before after nb nq wc hc) -> NoDup fs ->
  let K := length (image_tokens nb nq wc hc) in
  length fs = K ->
  let p := S (length before) in
  let out := scatter sep emb (prompt_mask before after nb nq wc hc) fs in
  (forall k, k < K -> nth_error out (p + k) = nth_error fs k) <-> p mod K = 0.
Proof.
  intros F sep emb before after nb nq wc hc fs LE ND K LF p out.
  assert (KP : 0 < K) by (unfold K; rewrite tokens_len; lia).
  destruct (C159_placed_partial F sep emb before after nb nq wc hc fs LE LF) as [_ [_ [P _]]]. fold K p out in P. split.
  - intros H. specialize (H 0 KP). rewrite (P 0 KP), Nat.add_0_r in H.
    assert (M := Nat.mod_upper_bound p K ltac:(lia)).
    apply (proj1 (NoDup_nth_error fs) ND); [rewrite LF; exact M|exact H].
  - intros Z k H. rewrite (P k H). f_equal. rewrite Nat.add_mod, Z by lia. cbn [Nat.add]. rewrite Nat.mod_mod by lia. apply Nat.mod_small. exact H.
Qed.

(** C159, refuted: the features are in order at the image's places only if the image's
    position is a multiple of the number of places; with the image at the start of the
    prompt (position 1, after the mark) they are rotated by one: the first place holds the
    second row. *)
Theorem C159_order_refuted : forall F (sep : F) emb after nb nq wc hc fs, 0 < nb ->
  length emb = length (prompt_ids [] after nb nq wc hc) -> length fs = length (image_tokens nb nq wc hc) ->
  nth_error (scatter sep emb (prompt_mask [] after nb nq wc hc) fs) 1 = nth_error fs 1.
Proof.
  intros F sep emb after nb nq wc hc fs NB LE LF.
  destruct (C159_placed_partial F sep emb [] after nb nq wc hc fs LE LF) as [_ [_ [P _]]].
  assert (L := tokens_len nb nq wc hc). specialize (P 0 ltac:(nia)). cbn [length Nat.add] in P. rewrite P. f_equal. apply Nat.mod_small. nia.
Qed.

(** C159, refuted: whether there are tiles is read off the sum of their pixels; tiles half
    black and half white count as none, and there are fewer rows than places. *)
Theorem C159_present_refuted : forall F (nl sep : F) nb nq wc hc page tiles n, 0 < nq -> 0 < hc -> 1 < wc ->
  length page = nb * nb ->
  let pixels := repeat 0%Z n ++ repeat 255%Z n in
  length (features nl sep (patches_present pixels) nb nq wc hc page tiles) < length (image_tokens nb nq wc hc).
Proof.
  intros F nl sep nb nq wc hc page tiles n Q H W P pixels.
  assert (PR : patches_present pixels = false).
  { unfold patches_present, pixels. rewrite fold_right_app.
    assert (S1 : forall m s, (fold_right (fun v s => 2 * v - 255 + s) s (repeat 255 m) = s + 255 * Z.of_nat m)%Z) by (induction m as [|m IH]; intros s; cbn [repeat fold_right]; [lia|rewrite IH; lia]).
    assert (S0 : forall m s, (fold_right (fun v s => 2 * v - 255 + s) s (repeat 0 m) = s - 255 * Z.of_nat m)%Z) by (induction m as [|m IH]; intros s; cbn [repeat fold_right]; [lia|rewrite IH; lia]).
    rewrite S1, S0. replace (0 + 255 * Z.of_nat n - 255 * Z.of_nat n)%Z with 0%Z by lia. reflexivity. }
  rewrite PR. rewrite tokens_len. unfold features. rewrite !app_length, (newlines_len _ _ _ _ _ P). cbn [length].
  destruct (Nat.ltb_spec 1 wc) as [_|K]; [|lia]. cbn [orb]. assert (0 < nq * hc) by nia. nia.
Qed.

(** The hypotheses are met: a page of one feature with two tiles of one feature each. *)
Example C159_hypotheses :
  features 100 200 true 1 1 2 1 [7] [3; 4] = [3; 4; 100; 7; 100; 200] /\
  length (image_tokens 1 1 2 1) = 6 /\
  scatter 200 [0; 1; 1; 1; 1; 1; 1; 5] (prompt_mask [] [5%Z] 1 1 2 1) [3; 4; 100; 7; 100; 200] = [0; 4; 100; 7; 100; 200; 3; 5].
Proof. vm_compute. repeat split. Qed.
Print Assumptions C159_count.
Print Assumptions C159_layout.
Print Assumptions C159_placed_partial.
Print Assumptions C159_order_refuted.
Print Assumptions C159_present_refuted.
Print Assumptions C159_in_order_partial.
