(** Indices to codes and back. *)
From Verif Require Import Base DTypeModel ParamModel AotModel AotProofs VlModel VlProofs MoeProofs QuantModel CpmAudioModel CpmAudio FsqModel FsqSpec FsqRound FsqProofs.
From Coq Require Import Reals Lra.
From Flocq Require Import Core.
Import ListNotations.
Open Scope nat_scope.

Definition indices_of (ls : list Z) (dss : list (list Z)) : list R := map (fun ds => IZR (number ls ds)) dss.
Definition level_at (ls : list Z) (p : nat) : Z := nth (p mod length ls) ls 0%Z.
Definition digit_at (ls : list Z) (dss : list (list Z)) (p : nat) : Z := nth (p mod length ls) (nth (p / length ls) dss []) 0%Z.

Lemma nth_of {X} (l : list X) n d : n < length l -> nth_error l n = Some (nth n l d).
Proof. intro H. apply nth_error_nth'. exact H. Qed.
Lemma codes_len ls ds : digits_of ls ds -> length (codes ls ds) = length ls.
Proof. intro H. unfold codes. rewrite map_length, combine_length, (digits_len _ _ H). lia. Qed.
Lemma codes_nth ls : forall ds d, digits_of ls ds -> d < length ls -> nth_error (codes ls ds) d = Some (code (nth d ls 0%Z) (nth d ds 0%Z)).
Proof.
  induction ls as [|l ls IH]; intros ds d H Hd; inversion H as [|a b c1 d1 H1 H2]; subst; [cbn in Hd; lia|].
  destruct d as [|d]; [reflexivity|]. cbn [codes combine map nth_error nth]. apply IH; [exact H2|cbn in Hd; lia].
Qed.
Lemma digit_in ls ds d : digits_of ls ds -> d < length ls -> (0 <= nth d ds 0 < nth d ls 0)%Z.
Proof.
  intros H. revert d. induction H as [|l c ls ds H _ IH]; intros d Hd; [cbn in Hd; lia|]. destruct d as [|d]; cbn [nth]; [exact H|]. apply IH. cbn in Hd. lia.
Qed.
Lemma split_mod p n D : p < n * D -> p / D < n /\ p mod D < D /\ p = p / D * D + p mod D.
Proof.
  intro H. assert (D <> 0) by nia. split; [apply Nat.div_lt_upper_bound; [assumption|nia]|]. split; [apply Nat.mod_upper_bound; assumption|].
  assert (E := Nat.div_mod p D). nia.
Qed.
Lemma i2f_level ls n l : Forall good ls -> (how_many ls < 2 ^ 24)%Z -> nth_error ls n = Some l ->
  rd (levels_tensor ls) n = ROk (IZR l) /\ f2i (IZR l) = ROk l /\ (2 <= l < 2 ^ 24)%Z.
Proof.
  intros Hg Hb N. destruct (level_le n ls l Hg N). unfold levels_tensor. rewrite (rd_ok _ _ (i2f l)) by (rewrite nth_error_map, N; reflexivity).
  rewrite i2f_ok by lia. rewrite f2i_int by lia. split; [reflexivity|]. split; [reflexivity|lia].
Qed.
Lemma half_ok l : (2 <= l < 2 ^ 24)%Z -> idiv l 2 = ROk (l / 2)%Z /\ i2f (l / 2) = IZR (l / 2) /\ (1 <= l / 2 < 2 ^ 23)%Z.
Proof.
  intro H. assert (B : (1 <= l / 2 < 2 ^ 23)%Z) by (Z.to_euclidean_division_equations; lia).
  unfold idiv. cbn [Z.eqb]. rewrite Z.quot_div_nonneg by lia. rewrite i32_ok by lia. rewrite i2f_ok by lia. auto.
Qed.
Lemma to_codes ls dss : ls <> [] -> Forall good ls -> (how_many ls < 2 ^ 24)%Z -> Forall (digits_of ls) dss ->
  indices_to_codes ls (indices_of ls dss) = ROk (flat_map (codes ls) dss).
Proof.
  intros Hn Hg Hb Hd. set (D := length ls). assert (HD : 0 < D) by (unfold D; destruct ls; [congruence|cbn; lia]).
  unfold indices_to_codes, basis_tensor. rewrite basis_ok by (auto; lia). cbn [rbind].
  assert (LI : indices_to_level_indices (levels_tensor ls) (map i2f (map (weight ls) (seq 0 (length ls)))) (indices_of ls dss)
    = ROk (map (fun p => IZR (digit_at ls dss p)) (seq 0 (length dss * D)))).
  { unfold indices_to_level_indices. cbv zeta.
    assert (Lv : length (levels_tensor ls) = D) by (unfold levels_tensor; apply map_length).
    assert (Ln : length (indices_of ls dss) = length dss) by (unfold indices_of; apply map_length). rewrite Lv, Ln. apply two_ok. intros i Hi.
    assert (Gi : digits_of ls (nth i dss [])) by (rewrite Forall_forall in Hd; apply Hd, nth_In; exact Hi).
    assert (Bi := number_bound _ _ Gi).
    assert (Ri : rd (indices_of ls dss) i = ROk (IZR (number ls (nth i dss [])))).
    { apply rd_ok. unfold indices_of. rewrite nth_error_map, (nth_of dss i []) by exact Hi. reflexivity. }
    apply does_ext with (g := for_up D 0 (fun d b => wr b (i * D + d) (IZR (digit_at ls dss (i * D + d))))).
    2:{ apply does_row. intros d b Hd'. reflexivity. }
    intro b. rewrite Ri. cbn [rbind]. rewrite f2i_int by lia. cbn [rbind].
    assert (G : forall n s b, s + n <= D -> for_up n s (fun d b0 => do bs <- rd (map i2f (map (weight ls) (seq 0 (length ls)))) d; do bs0 <- f2i bs;
        do level <- rd (levels_tensor ls) d; do level0 <- f2i level; do q <- idiv (number ls (nth i dss [])) bs0; do code <- imod q level0; wr b0 (i * D + d) (i2f code)) b
        = for_up n s (fun d b0 => wr b0 (i * D + d) (IZR (digit_at ls dss (i * D + d)))) b).
    { clear b. induction n as [|n IH]; intros s b Hs; [reflexivity|]. cbn [AotModel.for_up].
      assert (Hl : nth_error ls s = Some (nth s ls 0%Z)) by (apply nth_of; fold D; lia).
      destruct (i2f_level ls s _ Hg Hb Hl) as (L1 & L2 & L3).
      destruct (many_le s ls Hg) as (W1 & W2). fold (weight ls s) in W1, W2.
      rewrite (rd_ok _ s (IZR (weight ls s))).
      2:{ rewrite nth_error_map, nth_error_map_seq by (fold D; lia). cbn [option_map Nat.add]. rewrite i2f_ok by lia. reflexivity. }
      cbn [rbind]. rewrite f2i_int by lia. cbn [rbind]. rewrite L1. cbn [rbind]. rewrite L2. cbn [rbind].
      unfold idiv. replace (weight ls s =? 0)%Z with false by lia. rewrite Z.quot_div_nonneg by lia.
      assert (Q : (0 <= number ls (nth i dss []) / weight ls s <= number ls (nth i dss []))%Z).
      { split; [apply Z.div_pos; lia|]. apply Z.div_le_upper_bound; [lia|]. nia. }
      rewrite i32_ok by lia. cbn [rbind]. unfold imod. replace (nth s ls 0 =? 0)%Z with false by lia. rewrite Z.rem_mod_nonneg by lia.
      assert (Hc : nth_error (nth i dss []) s = Some (nth s (nth i dss []) 0%Z)) by (apply nth_of; rewrite (digits_len _ _ Gi); fold D; lia).
      rewrite (digit_of ls _ s _ _ Gi Hl Hc). assert (Rc := digit_in ls _ s Gi ltac:(fold D; lia)).
      rewrite i32_ok by lia. cbn [rbind]. rewrite i2f_ok by lia.
      replace (digit_at ls dss (i * D + s)) with (nth s (nth i dss []) 0%Z).
      2:{ unfold digit_at. fold D. rewrite div_mul_add, mod_mul_add by lia. reflexivity. }
      destruct (wr b (i * D + s) (IZR (nth s (nth i dss []) 0%Z))) as [b'| | |]; cbn [rbind]; auto. apply IH. lia. }
    apply G. lia. }
  rewrite LI. cbn [rbind]. unfold scale_and_shift_inverse. rewrite map_length, seq_length.
  rewrite (each_n _ (fun p => code (level_at ls p) (digit_at ls dss p))).
  - f_equal. apply nth_error_ext. intro p. destruct (Nat.lt_ge_cases p (length dss * D)) as [Hp|Hp].
    + rewrite nth_error_map_seq by exact Hp. cbn [Nat.add]. destruct (split_mod p (length dss) D Hp) as (A & B & C).
      rewrite C at 3. rewrite (nth_error_flat (codes ls) D); [|rewrite Forall_forall in *; intros x Hx; apply codes_len, Hd, Hx|exact B].
      rewrite (nth_of dss _ []) by exact A. rewrite codes_nth; [|rewrite Forall_forall in Hd; apply Hd, nth_In; exact A|exact B]. reflexivity.
    + transitivity (@None R); [apply nth_error_None; rewrite map_length, seq_length; exact Hp|]. symmetry. apply nth_error_None.
      clear - Hp Hd. revert Hp. generalize p. clear p. induction Hd as [|ds dss H _ IH]; intros p Hp; cbn [flat_map length Nat.mul] in *; [lia|].
      rewrite app_length, (codes_len _ _ H). fold D. assert (X := IH (p - D) ltac:(lia)). lia.
  - intros p b Hp. destruct (split_mod p (length dss) D Hp) as (A & B & C).
    unfold levels_tensor at 1. rewrite map_length. fold D. unfold nmod. replace (D =? 0) with false by lia. cbn [rbind].
    assert (Hl : nth_error ls (p mod D) = Some (level_at ls p)) by (apply nth_of; exact B).
    destruct (i2f_level ls _ _ Hg Hb Hl) as (L1 & L2 & L3). rewrite L1. cbn [rbind]. rewrite L2. cbn [rbind].
    destruct (half_ok _ L3) as (H1 & H2 & H3). rewrite H1. cbn [rbind].
    rewrite (rd_ok _ p (IZR (digit_at ls dss p))) by (rewrite nth_error_map_seq by exact Hp; reflexivity). cbn [rbind]. rewrite H2.
    rewrite <- minus_IZR.
    assert (Rc : (0 <= digit_at ls dss p < level_at ls p)%Z).
    { apply digit_in; [rewrite Forall_forall in Hd; apply Hd, nth_In; exact A|exact B]. }
    rewrite int32 by lia. rewrite fdiv_ok by (apply not_0_IZR; lia). cbn [rbind]. reflexivity.
Qed.

Lemma from_codes ls dss : ls <> [] -> Forall (fun l => 2 <= l <= 25)%Z ls -> (how_many ls < 2 ^ 24)%Z -> Forall (digits_of ls) dss ->
  codes_to_indices ls (flat_map (codes ls) dss) = ROk (indices_of ls dss).
Proof.
  intros Hn H25 Hb Hd. assert (Hg : Forall good ls) by (eapply Forall_impl; [|exact H25]; unfold good; cbn; intros; lia).
  set (D := length ls). assert (HD : 0 < D) by (unfold D; destruct ls; [congruence|cbn; lia]).
  assert (LF : length (flat_map (codes ls) dss) = length dss * D).
  { clear - Hd. induction Hd as [|ds dss H _ IH]; [reflexivity|]. cbn [flat_map length]. rewrite app_length, IH, (codes_len _ _ H). reflexivity. }
  unfold codes_to_indices, basis_tensor. rewrite basis_ok by (auto; lia). cbn [rbind]. fold D.
  unfold ndiv. rewrite LF. replace (D =? 0) with false by lia. cbn [rbind]. rewrite Nat.div_mul by lia.
  assert (SH : scale_and_shift (levels_tensor ls) (flat_map (codes ls) dss) = ROk (map (fun p => IZR (digit_at ls dss p)) (seq 0 (length dss * D)))).
  { unfold scale_and_shift. rewrite LF. apply each_n. intros p b Hp. destruct (split_mod p (length dss) D Hp) as (A & B & C).
    unfold levels_tensor at 1. rewrite map_length. fold D. unfold nmod. replace (D =? 0) with false by lia. cbn [rbind].
    assert (Hl : nth_error ls (p mod D) = Some (level_at ls p)) by (apply nth_of; exact B).
    destruct (i2f_level ls _ _ Hg Hb Hl) as (L1 & L2 & L3). rewrite L1. cbn [rbind]. rewrite L2. cbn [rbind].
    destruct (half_ok _ L3) as (H1 & H2 & H3). rewrite H1. cbn [rbind].
    rewrite (rd_ok _ p (code (level_at ls p) (digit_at ls dss p))).
    2:{ rewrite C at 1. rewrite (nth_error_flat (codes ls) D); [|rewrite Forall_forall in *; intros x Hx; apply codes_len, Hd, Hx|exact B].
        rewrite (nth_of dss _ []) by exact A. rewrite codes_nth; [|rewrite Forall_forall in Hd; apply Hd, nth_In; exact A|exact B]. reflexivity. }
    cbn [rbind]. rewrite H2. unfold code. rewrite trip; [reflexivity| |].
    - rewrite Forall_forall in H25. apply H25. eapply nth_error_In. exact Hl.
    - apply digit_in; [rewrite Forall_forall in Hd; apply Hd, nth_In; exact A|exact B]. }
  rewrite SH. cbn [rbind]. rewrite (each_n _ (fun i => IZR (number ls (nth i dss [])))).
  - f_equal. unfold indices_of. transitivity (map (fun ds => IZR (number ls ds)) (map (fun i => nth i dss []) (seq 0 (length dss)))); [rewrite map_map; reflexivity|]. rewrite map_nth_seq. reflexivity.
  - intros i b Hi. assert (Gi : digits_of ls (nth i dss [])) by (rewrite Forall_forall in Hd; apply Hd, nth_In; exact Hi).
    assert (Bi := number_bound _ _ Gi). set (ds := nth i dss []) in *.
    set (sum := fun k => fold_left (fun s d => (s + nth d ds 0 * weight ls d)%Z) (seq 0 k) 0%Z).
    assert (Sm : forall k, k <= D -> (0 <= sum k <= number ls ds)%Z).
    { intros k Hk. rewrite (number_weights ls ds Gi). fold D. unfold sum. replace D with (k + (D - k)) by lia. rewrite seq_app, fold_left_app.
      assert (P : forall d, d < D -> (0 <= nth d ds 0 * weight ls d)%Z).
      { intros d Hd'. assert (X := digit_in ls ds d Gi Hd'). destruct (many_le d ls Hg). unfold weight. nia. }
      split; apply fold_mono; intros d Hd'; apply in_seq in Hd'; apply P; lia. }
    destruct (for_up_inv (fun k s => s = sum k) (fun d sum0 => do x <- rd (map (fun p => IZR (digit_at ls dss p)) (seq 0 (length dss * D))) (i * D + d);
      do bs <- rd (map i2f (map (weight ls) (seq 0 (length ls)))) d; do v <- f2i (to_f32 (x * bs)); i32 (sum0 + v)) D 0 0%Z) as (s & E & V).
    + reflexivity.
    + intros d s Hd' ->. assert (X := digit_in ls ds d Gi ltac:(fold D; lia)). destruct (many_le d ls Hg) as (W1 & W2). fold (weight ls d) in W1, W2.
      rewrite (rd_ok _ (i * D + d) (IZR (nth d ds 0%Z))).
      2:{ rewrite nth_error_map_seq by (apply index_bound; lia). cbn [Nat.add]. unfold digit_at. fold D. rewrite div_mul_add, mod_mul_add by lia. reflexivity. }
      cbn [rbind]. rewrite (rd_ok _ d (IZR (weight ls d))).
      2:{ rewrite nth_error_map, nth_error_map_seq by (fold D; lia). cbn [option_map Nat.add]. rewrite i2f_ok by lia. reflexivity. }
      cbn [rbind]. rewrite <- mult_IZR.
      assert (S1 : sum (d + 1) = (sum d + nth d ds 0 * weight ls d)%Z).
      { unfold sum. rewrite seq_app, fold_left_app. reflexivity. }
      assert (A1 := Sm d ltac:(lia)). assert (A2 := Sm (d + 1) ltac:(lia)).
      assert (A3 : (0 <= nth d ds 0 * weight ls d)%Z) by nia.
      rewrite int32 by lia. rewrite f2i_int by lia. cbn [rbind]. rewrite i32_ok by lia. eexists. split; [reflexivity|]. symmetry. exact S1.
    + fold D in E. rewrite E. cbn [rbind]. rewrite V. cbn [Nat.add]. replace (sum D) with (number ls ds) by (apply number_weights, Gi).
      rewrite i2f_ok by lia. reflexivity.
Qed.
