(** Position ids of the language model, and the message. *)
From Verif Require Import Base DTypeModel ParamModel TensorModel VlModel VlSpec VlProofs VlGrid.
From Verif Require AotModel AotProofs AotGraph.
Local Open Scope nat_scope.

Lemma find_first_app : forall v pre r, ~ In v pre -> find_first v (pre ++ v :: r) = Some (length pre).
Proof.
  intros v pre r H. induction pre as [|x pre IH]; cbn [app find_first length].
  - rewrite Z.eqb_refl. reflexivity.
  - destruct (x =? v)%Z eqn:E; [exfalso; apply H; left; lia|]. rewrite IH; [reflexivity|]. intro I. apply H. right. exact I.
Qed.
Lemma find_first_none : forall v ids, ~ In v ids -> find_first v ids = None.
Proof.
  intros v ids H. induction ids as [|x ids IH]; cbn [find_first]; [reflexivity|].
  destruct (x =? v)%Z eqn:E; [exfalso; apply H; left; lia|]. rewrite IH; [reflexivity|]. intro I. apply H. right. exact I.
Qed.

Lemma merged_split : forall h w ti hi wi, hi < h -> wi < w -> merged_cell h w (ti * (h * w) + hi * w + wi) = (ti, hi, wi).
Proof.
  intros h w ti hi wi Hh Hw. unfold merged_cell. assert (B := index_bound hi wi h w Hh Hw).
  rewrite <- Nat.add_assoc. rewrite div_mul_add, mod_mul_add, div_mul_add by auto.
  replace (ti * (h * w) + (hi * w + wi)) with ((ti * h + hi) * w + wi) by lia. rewrite mod_mul_add by auto. reflexivity.
Qed.
Lemma cell_split : forall t h w r, r < t * h * w -> exists ti hi wi, ti < t /\ hi < h /\ wi < w /\ r = ti * (h * w) + hi * w + wi.
Proof.
  intros t h w r H. rewrite <- Nat.mul_assoc in H. destruct (index_split r t (h * w) H) as (ti & q & H1 & H2 & ->).
  destruct (index_split q h w H2) as (hi & wi & H3 & H4 & ->). exists ti, hi, wi. repeat split; auto. lia.
Qed.
Lemma cell_lt : forall t h w ti hi wi, ti < t -> hi < h -> wi < w -> ti * (h * w) + hi * w + wi < t * h * w.
Proof. intros t h w ti hi wi H1 H2 H3. rewrite <- Nat.add_assoc, <- Nat.mul_assoc. apply index_bound; auto. apply index_bound; auto. Qed.

(** One row of the [3, 1, n] tensor. *)
Definition pos_row (P Q t h w : nat) (a : nat) : list Z :=
  map Z.of_nat (seq 0 P) ++ map (fun r => Z.of_nat (P + axis a (merged_cell h w r))) (seq 0 (t * h * w)) ++
  map (fun k => Z.of_nat (P + Nat.max t (Nat.max h w) + k)) (seq 0 Q).
Lemma pos_row_len : forall P Q t h w a, length (pos_row P Q t h w a) = P + t * h * w + Q.
Proof. intros. unfold pos_row. rewrite !app_length, !map_length, !seq_length. lia. Qed.
Lemma pos_row_text : forall P Q t h w a k, k < P -> nth_error (pos_row P Q t h w a) k = Some (Z.of_nat k).
Proof. intros. unfold pos_row. rewrite nth_error_app1 by (rewrite map_length, seq_length; lia). rewrite nth_error_map_seq by lia. reflexivity. Qed.
Lemma pos_row_image : forall P Q t h w a r, r < t * h * w ->
  nth_error (pos_row P Q t h w a) (P + r) = Some (Z.of_nat (P + axis a (merged_cell h w r))).
Proof.
  intros. unfold pos_row. rewrite nth_error_app2 by (rewrite map_length, seq_length; lia). rewrite map_length, seq_length.
  rewrite nth_error_app1 by (rewrite map_length, seq_length; lia). replace (P + r - P) with r by lia. rewrite nth_error_map_seq by lia. reflexivity.
Qed.
Lemma pos_row_tail : forall P Q t h w a k, k < Q ->
  nth_error (pos_row P Q t h w a) (P + t * h * w + k) = Some (Z.of_nat (P + Nat.max t (Nat.max h w) + k)).
Proof.
  intros. unfold pos_row. rewrite nth_error_app2 by (rewrite map_length, seq_length; lia). rewrite map_length, seq_length.
  rewrite nth_error_app2 by (rewrite map_length, seq_length; lia). rewrite map_length, seq_length.
  replace (P + t * h * w + k - P - t * h * w) with k by lia. rewrite nth_error_map_seq by lia. reflexivity.
Qed.
Definition pos_rows (P Q t h w : nat) : list Z := flat_map (pos_row P Q t h w) (seq 0 3).
Lemma pos_rows_len : forall P Q t h w, length (pos_rows P Q t h w) = 3 * (P + t * h * w + Q).
Proof. intros. unfold pos_rows. rewrite (AotGraph.flat_map_len _ (P + t * h * w + Q)), seq_length; auto. intros a _. apply pos_row_len. Qed.
Lemma pos_rows_nth : forall P Q t h w a s, a < 3 -> s < P + t * h * w + Q ->
  nth_error (pos_rows P Q t h w) (a * (P + t * h * w + Q) + s) = nth_error (pos_row P Q t h w a) s.
Proof.
  intros P Q t h w a s Ha Hs. unfold pos_rows. rewrite (nth_error_flat _ (P + t * h * w + Q)).
  - rewrite nth_error_seq by lia. reflexivity.
  - apply Forall_forall. intros x _. apply pos_row_len.
  - exact Hs.
Qed.

Lemma prefill_ok : forall vtok m pre post t h w b, 0 < m -> ~ In vtok pre ->
  0 < t * (h / m) * (w / m) ->
  length b = 3 * (length pre + t * (h / m) * (w / m) + length post) ->
  position_ids_prefill vtok m (pre ++ repeat vtok (t * (h / m) * (w / m)) ++ post) (t, h, w) b =
  ROk (pos_rows (length pre) (length post) t (h / m) (w / m)).
Proof.
  intros vtok m pre post t h0 w0 b Hm Hpre Hn Hl. unfold position_ids_prefill.
  set (P := length pre) in *. set (Q := length post) in *. rewrite !ndiv_ok by auto. cbn [rbind].
  set (h := h0 / m) in *. set (w := w0 / m) in *. clearbody h w. clear h0 w0 m Hm.
  assert (LS : length (pre ++ repeat vtok (t * h * w) ++ post) = P + t * h * w + Q) by (rewrite !app_length, repeat_length; unfold P, Q; lia).
  rewrite LS. set (n := t * h * w) in *. set (S_ := P + n + Q) in *.
  replace (length b =? 3 * S_) with true by lia. cbn [negb].
  assert (Ef : find_first vtok (pre ++ repeat vtok n ++ post) = Some P).
  { destruct n as [|n']; [lia|]. cbn [repeat app]. apply find_first_app. exact Hpre. }
  rewrite Ef. clear Ef LS.
  assert (Dim : 0 < t /\ 0 < h /\ 0 < w). { unfold n in Hn. clear - Hn. destruct t, h, w; cbn in *; try lia. }
  set (target := pos_rows P Q t h w). assert (Lt : length target = 3 * S_) by apply pos_rows_len.
  set (ws1 := flat_map (fun d => flat_map (fun k => [(d * S_ + k, Z.of_nat k)]) (seq 0 P)) (seq 0 3)).
  set (one := fun ti hi wi c => [(0 * S_ + (P + c), (Z.of_nat P - 1 + 1 + Z.of_nat ti)%Z); (1 * S_ + (P + c), (Z.of_nat P - 1 + 1 + Z.of_nat hi)%Z);
                                 (2 * S_ + (P + c), (Z.of_nat P - 1 + 1 + Z.of_nat wi)%Z)]).
  set (ws2 := fun c => flat_map (fun ti => flat_map (fun hi => flat_map (fun wi =>
                 one ti hi wi (c + (ti - 0) * (h * (w * 1)) + (hi - 0) * (w * 1) + (wi - 0) * 1)) (seq 0 w)) (seq 0 h)) (seq 0 t)).
  set (M := Nat.max t (Nat.max h w)).
  set (ws3 := flat_map (fun d => flat_map (fun k => [(d * S_ + (P + n + k), (Z.of_nat (P + M - 1) + 1 + Z.of_nat k)%Z)]) (seq 0 (S_ - (P + n)))) (seq 0 3)).
  assert (In2 : forall p v, In (p, v) (ws2 0) -> exists a r, a < 3 /\ r < n /\ p = a * S_ + (P + r) /\ v = Z.of_nat (P + axis a (merged_cell h w r))).
  { intros p v I. unfold ws2 in I. apply in_loop in I as (ti & I1 & I). apply in_loop in I as (hi & I2 & I). apply in_loop in I as (wi & I3 & I).
    replace (0 + (ti - 0) * (h * (w * 1)) + (hi - 0) * (w * 1) + (wi - 0) * 1) with (ti * (h * w) + hi * w + wi) in I
      by (rewrite !Nat.sub_0_r, !Nat.mul_1_r; lia).
    assert (B := cell_lt t h w ti hi wi ltac:(lia) ltac:(lia) ltac:(lia)). assert (E := merged_split h w ti hi wi ltac:(lia) ltac:(lia)).
    unfold one in I. destruct I as [I|[I|[I|[]]]]; [exists 0|exists 1|exists 2]; exists (ti * (h * w) + hi * w + wi);
      injection I as <- <-; rewrite E; (split; [lia|]); (split; [exact B|]); (split; [lia|]); cbn [axis]; lia. }
  assert (In2' : forall a r, a < 3 -> r < n -> exists v, In (a * S_ + (P + r), v) (ws2 0)).
  { intros a r Ha Hr. destruct (cell_split t h w r Hr) as (ti & hi & wi & H1 & H2 & H3 & Er).
    exists (Z.of_nat P - 1 + 1 + Z.of_nat (axis a (ti, hi, wi)))%Z. unfold ws2.
    apply in_loop. exists ti. split; [lia|]. apply in_loop. exists hi. split; [lia|]. apply in_loop. exists wi. split; [lia|].
    replace (0 + (ti - 0) * (h * (w * 1)) + (hi - 0) * (w * 1) + (wi - 0) * 1) with r by (rewrite !Nat.sub_0_r, !Nat.mul_1_r; lia).
    unfold one. destruct a as [|[|[|]]]; [left|right; left|right; right; left|lia]; reflexivity. }
  assert (E : put_all (ws1 ++ ws2 0 ++ ws3) b = ROk target).
  { apply put_list; [lia| |].
    - intros p v I. apply in_app_or in I as [I|I]; [|apply in_app_or in I as [I|I]].
      + unfold ws1 in I. apply in_loop in I as (d & I1 & I). apply in_loop in I as (k & I2 & I). destruct I as [I|[]]. injection I as <- <-.
        unfold target. rewrite pos_rows_nth by (fold n S_; lia). apply pos_row_text. lia.
      + destruct (In2 p v I) as (a & r & Ha & Hr & -> & ->). unfold target. rewrite pos_rows_nth by (fold n S_; lia). apply pos_row_image. exact Hr.
      + unfold ws3 in I. apply in_loop in I as (d & I1 & I). apply in_loop in I as (k & I2 & I). destruct I as [I|[]]. injection I as <- <-.
        unfold target. rewrite pos_rows_nth by (fold n S_; lia). unfold n. rewrite pos_row_tail by lia. f_equal. fold M. assert (0 < M) by lia. lia.
    - intros p Hp. rewrite Lt in Hp. destruct (index_split p 3 S_ Hp) as (a & s & Ha & Hs & ->).
      destruct (Nat.lt_ge_cases s P) as [C1|C1]; [|destruct (Nat.lt_ge_cases s (P + n)) as [C2|C2]].
      + exists (Z.of_nat s). apply in_or_app. left. unfold ws1. apply in_loop. exists a. split; [lia|]. apply in_loop. exists s. split; [lia|]. left. reflexivity.
      + destruct (In2' a (s - P) Ha ltac:(lia)) as [v I]. exists v. apply in_or_app. right. apply in_or_app. left.
        replace s with (P + (s - P)) at 1 by lia. exact I.
      + eexists. apply in_or_app. right. apply in_or_app. right. unfold ws3. apply in_loop. exists a. split; [lia|].
        apply in_loop. exists (s - (P + n)). split; [lia|]. left. f_equal. lia. }
  destruct (put_all_inv _ _ _ _ E) as (b1 & E1 & E'). destruct (put_all_inv _ _ _ _ E') as (b2 & E2 & E3).
  assert (L1 : for_up 3 0 (fun d b => for_up P 0 (fun k b => wr b (d * S_ + k) (Z.of_nat k)) b) b = ROk b1).
  { apply (does_loop _ (fun d => flat_map (fun k => [(d * S_ + k, Z.of_nat k)]) (seq 0 P))); [|exact E1].
    intros d _. apply does_loop. intros k _. apply does_one. }
  rewrite L1. cbn [rbind].
  match goal with |- rbind ?x _ = _ => assert (L2 : x = ROk (0 + t * (h * (w * 1)), b2)) end.
  { apply (counts_loop _ (h * (w * 1)) (fun ti c => flat_map (fun hi => flat_map (fun wi => one ti hi wi (c + (hi - 0) * (w * 1) + (wi - 0) * 1)) (seq 0 w)) (seq 0 h)));
      [|exact E2].
    intros ti _. apply (counts_loop _ (w * 1) (fun hi c => flat_map (fun wi => one ti hi wi (c + (wi - 0) * 1)) (seq 0 w))).
    intros hi _. apply (counts_loop _ 1 (fun wi c => one ti hi wi c)).
    intros wi _ c b3 b4 E4. unfold one in E4. cbn [put_all] in E4. unfold write in E4. cbn [fst snd] in E4.
    destruct (wr b3 _ _) as [b5| | |]; cbn [rbind] in *; try discriminate.
    destruct (wr b5 _ _) as [b6| | |]; cbn [rbind] in *; try discriminate.
    destruct (wr b6 _ _) as [b7| | |]; cbn [rbind] in *; try discriminate. congruence. }
  rewrite L2. cbn [rbind snd]. clear L1 L2. replace (P + n =? 0) with false by lia.
  assert (Keep : forall p, (forall v, ~ In (p, v) ws3) -> nth_error target p = nth_error b2 p).
  { destruct (put_all_ok ws3 b2) as (b' & Eb & _ & _ & O).
    - intros p v I. assert (Lb : length b2 = length b).
      { assert (G : forall (ws : list (nat * Z)) x y, put_all ws x = ROk y -> length y = length x).
        { clear. intro ws. induction ws as [|u ws IH]; intros x y H; cbn [put_all] in H; [congruence|]. unfold write in H.
          destruct (wr x (fst u) (snd u)) as [x'| | |] eqn:Ex; cbn [rbind] in H; try discriminate. rewrite (IH _ _ H).
          assert (El : fst u < length x) by (unfold wr in Ex; destruct (fst u <? length x) eqn:El; [lia|discriminate]).
          destruct (wr_ok x (fst u) (snd u) El) as (z & Ez & Lz & _). congruence. }
        rewrite (G _ _ _ E2). apply (G _ _ _ E1). }
      unfold ws3 in I. apply in_loop in I as (d & I1 & I). apply in_loop in I as (k & I2 & I). destruct I as [I|[]]. injection I as <- _.
      rewrite Lb, Hl. change (length pre) with P. fold n S_. apply index_bound; lia.
    - intros p v v' I I'. unfold ws3 in I, I'. apply in_loop in I as (d & I1 & I). apply in_loop in I as (k & I2 & I). destruct I as [I|[]].
      apply in_loop in I' as (d' & I1' & I'). apply in_loop in I' as (k' & I2' & I'). destruct I' as [I'|[]].
      injection I as Ep <-. injection I' as Ep' <-.
      assert (k = k'); [|congruence]. assert (X1 := mod_mul_add d S_ (P + n + k) ltac:(lia)). assert (X2 := mod_mul_add d' S_ (P + n + k') ltac:(lia)).
      rewrite Ep in X1. rewrite Ep' in X2. lia.
    - intros p Hp. rewrite E3 in Eb. injection Eb as <-. apply O. exact Hp. }
  assert (Tail : forall a, a < 3 -> rd b2 (a * S_ + (P + n - 1)) = ROk (Z.of_nat (P + (axis a (t, h, w) - 1)))).
  { intros a Ha. apply rd_ok. rewrite <- Keep.
    - unfold target. rewrite pos_rows_nth by (fold n S_; lia). replace (P + n - 1) with (P + (n - 1)) by lia.
      rewrite pos_row_image by (fold n; lia). f_equal. f_equal. f_equal.
      assert (En : n - 1 = (t - 1) * (h * w) + (h - 1) * w + (w - 1)).
      { unfold n. clear - Dim. destruct t as [|t]; [lia|]. destruct h as [|h]; [lia|]. destruct w as [|w]; [lia|].
        cbn [Nat.sub]. rewrite !Nat.sub_0_r. lia. }
      rewrite En, merged_split by lia. destruct a as [|[|[|]]]; [reflexivity..|lia].
    - intros v I. unfold ws3 in I. apply in_loop in I as (d & I1 & I). apply in_loop in I as (k & I2 & I). destruct I as [I|[]]. injection I as Ep _.
      assert (X1 := mod_mul_add a S_ (P + n - 1) ltac:(lia)). assert (X2 := mod_mul_add d S_ (P + n + k) ltac:(lia)). rewrite Ep in X2. lia. }
  rewrite (Tail 0), (Tail 1), (Tail 2) by lia. cbn [rbind axis].
  assert (EM : max3 (Z.of_nat (P + (t - 1))) (Z.of_nat (P + (h - 1))) (Z.of_nat (P + (w - 1))) = Z.of_nat (P + M - 1)) by (unfold max3, M; lia).
  rewrite EM. apply (does_loop _ (fun d => flat_map (fun k => [(d * S_ + (P + n + k), (Z.of_nat (P + M - 1) + 1 + Z.of_nat k)%Z)]) (seq 0 (S_ - (P + n))))); [|exact E3].
  intros d _. apply does_loop. intros k _. apply does_one.
Qed.

(** Decoding. *)
Lemma decode_small : forall k v, decode_steps k [v; v; v] = ROk [(v + Z.of_nat k)%Z; (v + Z.of_nat k)%Z; (v + Z.of_nat k)%Z].
Proof.
  intro k. induction k as [|k IH]; intro v; cbn [decode_steps]; [rewrite Z.add_0_r; reflexivity|].
  change (position_ids_decode [v; v; v]) with (@ROk (list Z) [(v + 1)%Z; (v + 1)%Z; (v + 1)%Z]). cbn [rbind]. rewrite IH.
  replace (v + 1 + Z.of_nat k)%Z with (v + Z.of_nat (S k))%Z by lia. reflexivity.
Qed.
Lemma decode_first : forall ids n v, 0 < n -> length ids = 3 * n -> nth_error ids (n - 1) = Some v -> position_ids_decode ids = ROk [(v + 1)%Z; (v + 1)%Z; (v + 1)%Z].
Proof.
  intros ids n v Hn Hl H. unfold position_ids_decode. rewrite Hl, Nat.mul_comm, Nat.div_mul by lia.
  replace (n =? 0) with false by lia. cbn [Nat.mul Nat.add]. rewrite (rd_ok _ _ _ H). reflexivity.
Qed.

(** The message. *)
Lemma expand_ok : forall pad pre post g, ~ In pad pre -> 0 < positions_of g / 4 ->
  expand_pads pad (pre ++ pad :: post) g = ROk (pre ++ repeat pad (positions_of g / 4) ++ post).
Proof.
  intros pad pre post g Hp Hg. unfold expand_pads. rewrite find_first_app by auto.
  set (n := positions_of g / 4) in *. replace (n =? 0) with false by lia. f_equal.
  assert (E : pre ++ pad :: post = (pre ++ [pad]) ++ post) by (rewrite <- app_assoc; reflexivity).
  assert (L : length (pre ++ [pad]) = length pre + 1) by (rewrite app_length; reflexivity).
  rewrite E, <- L. rewrite firstn_app, skipn_app, Nat.sub_diag, firstn_all, skipn_all. cbn [firstn skipn app]. rewrite app_nil_r.
  rewrite <- app_assoc. f_equal. destruct n as [|n]; [lia|]. cbn [repeat app]. rewrite Nat.sub_succ, Nat.sub_0_r. reflexivity.
Qed.
Lemma insert_ok : forall {R} vtok pre n post (rp rv rq visual : list R), ~ In vtok pre -> 0 < n ->
  length rp = length pre -> length rv = length visual ->
  insert_visual vtok (pre ++ repeat vtok n ++ post) (rp ++ rv ++ rq) visual = ROk (rp ++ visual ++ rq).
Proof.
  intros R vtok pre n post rp rv rq visual Hp Hn L1 L2. unfold insert_visual. destruct n as [|n]; [lia|]. cbn [repeat app].
  rewrite find_first_app by auto. rewrite <- L1.
  apply (does_loop _ (fun k => match nth_error visual k with Some x => [(length rp + k, x)] | None => [] end)).
  - intros k Hk. destruct (nth_error visual k) as [x|] eqn:E; [|apply nth_error_None in E; lia].
    eapply does_ext; [|apply does_one]. intro b. rewrite (rd_ok _ _ _ E). reflexivity.
  - destruct visual as [|d0 visual0] eqn:Ev; [destruct rv; [reflexivity|discriminate]|]. rewrite <- Ev in *. clear Ev visual0.
    rewrite (put_block _ _ (length rp) (length visual) (fun k => nth k visual d0)).
    + assert (Sk : skipn (length rp + length visual) (rp ++ rv ++ rq) = rq).
      { rewrite <- L2, <- app_length, app_assoc, skipn_app, skipn_all, Nat.sub_diag. reflexivity. }
      rewrite Sk, firstn_app, Nat.sub_diag, firstn_all. cbn [firstn]. rewrite app_nil_r. do 2 f_equal. f_equal.
      apply (nth_ext _ _ d0 d0); [rewrite map_length, seq_length; reflexivity|]. intros k Hk. rewrite map_length, seq_length in Hk.
      rewrite (AotGraph.nth_map_seq (fun k => nth k visual d0)) by auto. reflexivity.
    + rewrite !app_length. lia.
    + intros p v I. apply in_loop in I as (k & I1 & I). exists k. destruct (nth_error visual k) as [x|] eqn:E; [|destruct I].
      destruct I as [I|[]]. injection I as <- <-. split; [lia|]. split; [reflexivity|]. symmetry. apply nth_error_nth. exact E.
    + intros k Hk. apply in_loop. exists k. split; [lia|]. rewrite (nth_error_nth' visual d0 Hk). left. reflexivity.
Qed.
