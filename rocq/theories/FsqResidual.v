(** Residual decoding. *)
From Verif Require Import Base DTypeModel ParamModel AotModel AotProofs VlModel VlProofs MoeProofs QuantModel CpmAudioModel CpmAudio FsqModel FsqSpec FsqRound FsqProofs FsqCodes.
From Coq Require Import Reals Lra ArithRing.
From Flocq Require Import Core.
Import ListNotations.
Open Scope nat_scope.

(** ** Every number has its digits *)
Fixpoint digs (ls : list Z) (n : Z) : list Z := match ls with [] => [] | l :: ls => (n mod l)%Z :: digs ls (n / l)%Z end.
Lemma digs_ok ls : Forall good ls -> forall n, (0 <= n < how_many ls)%Z -> digits_of ls (digs ls n) /\ number ls (digs ls n) = n.
Proof.
  induction 1 as [|l ls Hl _ IH]; intros n Hn; cbn [digs].
  - unfold how_many in Hn. cbn [fold_right] in Hn. split; [constructor|]. cbn [number]. lia.
  - rewrite many_cons in Hn. unfold good in Hl. assert (B : (0 <= n / l < how_many ls)%Z).
    { split; [apply Z.div_pos; lia|]. apply Z.div_lt_upper_bound; lia. }
    destruct (IH _ B) as (A1 & A2). split; [constructor; [apply Z.mod_pos_bound; lia|exact A1]|]. cbn [number]. rewrite A2.
    assert (E := Z_div_mod_eq_full n l). lia.
Qed.
Lemma digs_number ls ds : digits_of ls ds -> digs ls (number ls ds) = ds.
Proof.
  induction 1 as [|l d ls ds H _ IH]; [reflexivity|]. cbn [number digs]. f_equal.
  - rewrite Z.mul_comm, Z_mod_plus_full. apply Z.mod_small. lia.
  - rewrite (Z.mul_comm l), Z_div_plus by lia. rewrite (Z.div_small d l) by lia. exact IH.
Qed.

(** ** The codebook *)
Lemma codebook_ok ls : ls <> [] -> Forall good ls -> (how_many ls < 2 ^ 24)%Z ->
  implicit_codebook ls = ROk (flat_map (codes ls) (map (fun i => digs ls (Z.of_nat i)) (seq 0 (Z.to_nat (how_many ls))))).
Proof.
  intros Hn Hg Hb. assert (P := many_pos ls Hg). unfold implicit_codebook. rewrite size_ok by (auto; lia). cbn [rbind].
  rewrite <- to_codes; auto.
  - f_equal. unfold indices_of. rewrite map_map. apply map_ext_in. intros i Hi. apply in_seq in Hi.
    destruct (digs_ok ls Hg (Z.of_nat i)) as (_ & E); [lia|]. rewrite E. apply i2f_ok. lia.
  - apply Forall_forall. intros x Hx. apply in_map_iff in Hx. destruct Hx as (i & <- & Hi). apply in_seq in Hi. apply digs_ok; [exact Hg|lia].
Qed.
Lemma repeat_flat {X} (c : list X) n : concat (repeat c n) = flat_map (fun _ => c) (seq 0 n).
Proof. generalize 0. induction n as [|n IH]; intro s; [reflexivity|]. cbn. rewrite (IH (S s)). reflexivity. Qed.
Lemma codebook_at ls Q q i d : ls <> [] -> Forall good ls -> (how_many ls < 2 ^ 24)%Z -> q < Q -> (0 <= i < how_many ls)%Z -> d < length ls ->
  exists cb, codebooks ls Q = ROk cb /\
  nth_error cb (q * Z.to_nat (how_many ls) * length ls + Z.to_nat i * length ls + d) = Some (code (nth d ls 0%Z) (nth d (digs ls i) 0%Z)).
Proof.
  intros Hn Hg Hb Hq Hi Hd. unfold codebooks. rewrite codebook_ok by assumption. cbn [rbind]. eexists. split; [reflexivity|].
  set (S0 := Z.to_nat (how_many ls)). set (D := length ls) in *. set (c := flat_map _ _). rewrite repeat_flat.
  assert (FL : Forall (fun x => length (codes ls x) = D) (map (fun i => digs ls (Z.of_nat i)) (seq 0 S0))).
  { apply Forall_forall. intros x Hx. apply in_map_iff in Hx. destruct Hx as (j & <- & Hj). apply in_seq in Hj. apply codes_len, digs_ok; [exact Hg|lia]. }
  assert (Lc : length c = S0 * D).
  { unfold c. replace S0 with (length (map (fun i => digs ls (Z.of_nat i)) (seq 0 S0))) at 2 by (rewrite map_length, seq_length; reflexivity).
    clear - FL. induction FL as [|x l H _ IH]; [reflexivity|]. cbn [flat_map length]. rewrite app_length, IH, H. reflexivity. }
  assert (Hi' : Z.to_nat i < S0) by lia.
  replace (q * S0 * D + Z.to_nat i * D + d) with (q * (S0 * D) + (Z.to_nat i * D + d)) by ring.
  rewrite (nth_error_flat (fun _ : nat => c) (S0 * D)); [|apply Forall_forall; intros; exact Lc|apply index_bound; assumption].
  rewrite nth_error_seq by exact Hq. unfold c. rewrite (nth_error_flat (codes ls) D) by assumption.
  rewrite nth_error_map_seq by exact Hi'. cbn [Nat.add]. rewrite Z2Nat.id by lia. apply codes_nth; [apply digs_ok; assumption|exact Hd].
Qed.

(** ** Rows written twice *)
Lemma put_in {A} (ws : list (nat * A)) : forall b b' p v, put_all ws b = ROk b' -> In (p, v) ws -> p < length b.
Proof.
  induction ws as [|(q, x) ws IH]; intros b b' p v E I; [destruct I|]. cbn [put_all] in E. unfold write in E. cbn [fst snd] in E.
  destruct (Nat.lt_ge_cases q (length b)) as [Hq|Hq].
  - destruct (wr_ok b q x Hq) as (b1 & E1 & L1 & _). rewrite E1 in E. cbn [rbind] in E. destruct I as [I|I]; [congruence|]. rewrite <- L1. eapply IH; eauto.
  - unfold wr in E. replace (q <? length b) with false in E by lia. discriminate.
Qed.
Lemma put_row {A} (b : list A) q n f : q + n <= length b ->
  put_all (map (fun d => (q + d, f d)) (seq 0 n)) b = ROk (firstn q b ++ map f (seq 0 n) ++ skipn (q + n) b).
Proof.
  intro H. apply put_block; [exact H| |].
  - intros p v I. apply in_map_iff in I. destruct I as (d & E & Hd). apply in_seq in Hd. injection E as <- <-. exists d. split; [lia|auto].
  - intros k Hk. apply in_map_iff. exists k. split; [reflexivity|]. apply in_seq. lia.
Qed.
Lemma does_twice {A} (f g : list A -> res (list A)) q n u v :
  does f (map (fun d => (q + d, u d)) (seq 0 n)) -> does g (map (fun d => (q + d, v d)) (seq 0 n)) ->
  does (fun b => do b <- f b; g b) (map (fun d => (q + d, v d)) (seq 0 n)).
Proof.
  intros F G b b' E. destruct n as [|n].
  - rewrite (F b b eq_refl). cbn [rbind]. apply G. exact E.
  - assert (Hb : q + S n <= length b).
    { assert (I : In (q + n, v n) (map (fun d => (q + d, v d)) (seq 0 (S n)))) by (apply in_map_iff; exists n; split; [reflexivity|apply in_seq; lia]).
      assert (X := put_in _ _ _ _ _ E I). lia. }
    set (b1 := firstn q b ++ map u (seq 0 (S n)) ++ skipn (q + S n) b).
    assert (L1 : length b1 = length b) by (unfold b1; rewrite !app_length, firstn_length, map_length, seq_length, skipn_length; lia).
    rewrite (F b b1 (put_row b q (S n) u Hb)). cbn [rbind]. apply G. rewrite put_row in E by exact Hb. rewrite put_row by lia. rewrite <- E. f_equal. f_equal; [|f_equal].
    + unfold b1. rewrite firstn_app, firstn_length, Nat.min_l by lia. rewrite Nat.sub_diag. cbn [firstn]. rewrite app_nil_r. rewrite firstn_firstn, Nat.min_id. reflexivity.
    + unfold b1. rewrite app_assoc, skipn_app. rewrite app_length, firstn_length, map_length, seq_length. rewrite Nat.min_l by lia. rewrite Nat.sub_diag. cbn [skipn].
      rewrite skipn_all2; [reflexivity|]. rewrite app_length, firstn_length, map_length, seq_length. lia.
Qed.

(** ** One index *)
Definition kept (z : Z) : Z := if (z =? -1)%Z then 0%Z else z.
Lemma unmask_ok ids : unmask ids = ROk (map kept ids).
Proof.
  unfold unmask.
  destruct (for_up_inv (fun i b => length b = length ids /\ forall j, nth_error b j = if j <? i then option_map kept (nth_error ids j) else nth_error ids j)
    (fun i b => do x <- rd b i; if (x =? -1)%Z then wr b i 0%Z else ROk b) (length ids) 0 ids) as (b & E & L & V).
  - split; [reflexivity|]. intro j. reflexivity.
  - intros i b Hi (L & V). assert (Hx := nth_of ids i 0%Z ltac:(lia)). assert (Vi := V i). replace (i <? i) with false in Vi by lia. rewrite Hx in Vi.
    rewrite (rd_ok _ _ _ Vi). cbn [rbind]. destruct (nth i ids 0%Z =? -1)%Z eqn:Em.
    + destruct (wr_ok b i 0%Z) as (b' & E' & L' & P & O); [lia|]. exists b'. split; [exact E'|]. split; [lia|]. intro j.
      destruct (Nat.eq_dec j i) as [->|N].
      * rewrite P. replace (i <? i + 1) with true by lia. rewrite Hx. cbn [option_map]. unfold kept. rewrite Em. reflexivity.
      * rewrite O by exact N. rewrite V. destruct (j <? i) eqn:A; destruct (j <? i + 1) eqn:B; try reflexivity; lia.
    + exists b. split; [reflexivity|]. split; [exact L|]. intro j. rewrite V.
      destruct (j <? i) eqn:A; destruct (j <? i + 1) eqn:B; try reflexivity; try lia.
      assert (j = i) by lia. subst j. rewrite Hx. cbn [option_map]. unfold kept. rewrite Em. reflexivity.
  - rewrite E. f_equal. apply nth_error_ext. intro j. rewrite V, nth_error_map. cbn [Nat.add]. destruct (j <? length ids) eqn:A; [reflexivity|].
    assert (N : nth_error ids j = None) by (apply nth_error_None; lia). rewrite N. reflexivity.
Qed.

Lemma three_ok {A} (body : nat -> nat -> nat -> list A -> res (list A)) (f : nat -> A) Q B n k x :
  (forall q b j, q < Q -> b < B -> j < n -> does (body q b j) (map (fun d => ((q * (B * n) + (b * n + j)) * k + d, f ((q * (B * n) + (b * n + j)) * k + d))) (seq 0 k))) ->
  for_up Q 0 (fun q b0 => for_up B 0 (fun b b0 => for_up n 0 (fun j out => body q b j out) b0) b0) (repeat x (Q * B * n * k)) = ROk (map f (seq 0 (Q * B * n * k))).
Proof.
  intro H.
  set (ws := flat_map (fun q => flat_map (fun b => flat_map (fun j => map (fun d => ((q * (B * n) + (b * n + j)) * k + d, f ((q * (B * n) + (b * n + j)) * k + d))) (seq 0 k)) (seq 0 n)) (seq 0 B)) (seq 0 Q)).
  assert (Dw : does (for_up Q 0 (fun q b0 => for_up B 0 (fun b b0 => for_up n 0 (fun j out => body q b j out) b0) b0)) ws).
  { unfold ws. apply (does_loop (fun q b0 => for_up B 0 (fun b b0 => for_up n 0 (fun j out => body q b j out) b0) b0)). intros q Hq.
    apply (does_loop (fun b b0 => for_up n 0 (fun j out => body q b j out) b0)). intros b Hb.
    apply (does_loop (fun j out => body q b j out)). intros j Hj. apply H; lia. }
  assert (P := put_whole ws (repeat x (Q * B * n * k)) f). rewrite repeat_length in P. apply Dw. apply P.
  - intros p v I. unfold ws in I. apply in_loop in I. destruct I as (q & Hq & I). apply in_loop in I. destruct I as (b & Hb & I).
    apply in_loop in I. destruct I as (j & Hj & I). apply in_map_iff in I. destruct I as (d & E & Hd). apply in_seq in Hd. injection E as <- <-.
    split; [|reflexivity]. rewrite <- (Nat.mul_assoc Q B n). apply index_bound; [|lia]. apply index_bound; [lia|]. apply index_bound; lia.
  - intros p Hp. rewrite <- (Nat.mul_assoc Q B n) in Hp. destruct (index_split p _ _ Hp) as (r & d & Hr & Hd & ->).
    destruct (index_split r _ _ Hr) as (q & s & Hq & Hs & ->). destruct (index_split s _ _ Hs) as (b & j & Hb & Hj & ->).
    exists (f ((q * (B * n) + (b * n + j)) * k + d)). unfold ws. apply in_loop. exists q. split; [lia|]. apply in_loop. exists b. split; [lia|].
    apply in_loop. exists j. split; [lia|]. apply in_map_iff. exists d. split; [reflexivity|]. apply in_seq. lia.
Qed.

Lemma nest_ok {A} (body : nat -> nat -> list A -> res (list A)) (f : nat -> A) Q M k x :
  (forall q j, q < Q -> j < M -> does (body q j) (map (fun d => ((q * M + j) * k + d, f ((q * M + j) * k + d))) (seq 0 k))) ->
  for_up Q 0 (fun q b0 => for_up M 0 (fun j out => body q j out) b0) (repeat x (Q * M * k)) = ROk (map f (seq 0 (Q * M * k))).
Proof.
  intro H.
  set (ws := flat_map (fun q => flat_map (fun j => map (fun d => ((q * M + j) * k + d, f ((q * M + j) * k + d))) (seq 0 k)) (seq 0 M)) (seq 0 Q)).
  assert (Dw : does (for_up Q 0 (fun q b0 => for_up M 0 (fun j out => body q j out) b0)) ws).
  { unfold ws. apply (does_loop (fun q b0 => for_up M 0 (fun j out => body q j out) b0)). intros q Hq.
    apply (does_loop (fun j out => body q j out)). intros j Hj. apply H; lia. }
  assert (P := put_whole ws (repeat x (Q * M * k)) f). rewrite repeat_length in P. apply Dw. apply P.
  - intros p v I. unfold ws in I. apply in_loop in I. destruct I as (q & Hq & I).
    apply in_loop in I. destruct I as (j & Hj & I). apply in_map_iff in I. destruct I as (d & E & Hd). apply in_seq in Hd. injection E as <- <-.
    split; [|reflexivity]. apply index_bound; [|lia]. apply index_bound; lia.
  - intros p Hp. destruct (index_split p _ _ Hp) as (r & d & Hr & Hd & ->). destruct (index_split r _ _ Hr) as (q & j & Hq & Hj & ->).
    exists (f ((q * M + j) * k + d)). unfold ws. apply in_loop. exists q. split; [lia|]. apply in_loop. exists j. split; [lia|].
    apply in_map_iff. exists d. split; [reflexivity|]. apply in_seq. lia.
Qed.

(** What one index contributes: nothing when it is -1 or 0. *)
Definition part (ls : list Z) (i : Z) (d : nat) : R := if (kept i =? 0)%Z then 0%R else code (nth d ls 0%Z) (nth d (digs ls i) 0%Z).
Lemma gather_ok ls B n Q ids cb : ls <> [] -> Forall good ls -> (how_many ls < 2 ^ 24)%Z -> 0 < B -> 0 < Q ->
  length ids = B * n * Q -> Forall (fun i => -1 <= i < how_many ls)%Z ids -> codebooks ls Q = ROk cb ->
  gather_codes cb (Z.to_nat (how_many ls)) (length ls) B n Q (map kept ids) =
  ROk (map (fun p => part ls (nth ((p / length ls) mod (B * n) * Q + p / length ls / (B * n)) ids 0%Z) (p mod length ls)) (seq 0 (Q * B * n * length ls))).
Proof.
  intros Hn Hg Hb HB HQ Hl Hi Hc. set (D := length ls). assert (HD : 0 < D) by (unfold D; destruct ls; [congruence|cbn; lia]).
  assert (P1 := many_pos ls Hg). unfold gather_codes.
  apply (three_ok (fun q b k out => do raw <- rd (map kept ids) (b * n * Q + k * Q + q); _)). intros q b j Hq Hb' Hj.
  set (r := b * n + j). assert (Hr : r < B * n) by (apply index_bound; assumption).
  assert (Hp : r * Q + q < length ids) by (rewrite Hl; apply index_bound; assumption).
  set (i := nth (r * Q + q) ids 0%Z). assert (Ri : (-1 <= i < how_many ls)%Z) by (rewrite Forall_forall in Hi; apply Hi, nth_In; exact Hp).
  assert (Rd : rd (map kept ids) (b * n * Q + j * Q + q) = ROk (kept i)).
  { apply rd_ok. replace (b * n * Q + j * Q + q) with (r * Q + q) by (unfold r; ring). rewrite nth_error_map, (nth_of ids _ 0%Z) by exact Hp. reflexivity. }
  assert (Rk : (0 <= kept i < how_many ls)%Z) by (unfold kept; destruct (i =? -1)%Z eqn:E; lia).
  assert (Ti : to_int (kept i) = kept i). { unfold to_int. rewrite Z.mod_small by lia. lia. }
  set (o := (q * (B * n) + r) * D).
  assert (CP : does (for_up D 0 (fun d out => do x <- rd cb (q * Z.to_nat (how_many ls) * D + Z.to_nat (kept i) * D + d); wr out (q * B * n * D + b * n * D + j * D + d) x))
     (map (fun d => (o + d, code (nth d ls 0%Z) (nth d (digs ls (kept i)) 0%Z))) (seq 0 D))).
  { apply does_row. intros d w Hd'. destruct (codebook_at ls Q q (kept i) d Hn Hg Hb Hq Rk Hd') as (cb' & Ec & V). rewrite Hc in Ec. injection Ec as <-.
    fold D in V. rewrite (rd_ok _ _ _ V). cbn [rbind]. f_equal. unfold o, r. ring. }
  assert (F : forall d, d < D -> part ls (nth (((o + d) / D) mod (B * n) * Q + (o + d) / D / (B * n)) ids 0%Z) ((o + d) mod D) = part ls i d).
  { intros d Hd'. unfold o. rewrite div_mul_add, mod_mul_add by lia. rewrite div_mul_add, mod_mul_add by lia. reflexivity. }
  assert (EW : map (fun d => (o + d, part ls (nth (((o + d) / D) mod (B * n) * Q + (o + d) / D / (B * n)) ids 0%Z) ((o + d) mod D))) (seq 0 D) = map (fun d => (o + d, part ls i d)) (seq 0 D)).
  { apply map_ext_in. intros d Hd'. apply in_seq in Hd'. rewrite F by lia. reflexivity. }
  rewrite EW. eapply does_ext; [intro w; rewrite Rd; cbn [rbind]; cbv zeta; rewrite Ti; replace (Z.max 0 (Z.min (kept i) (Z.of_nat (Z.to_nat (how_many ls)) - 1))) with (kept i) by lia; reflexivity|].
  unfold part. destruct (kept i =? 0)%Z eqn:E0.
  - apply (does_twice _ (for_up D 0 (fun d out => wr out (q * B * n * D + b * n * D + j * D + d) 0%R)) _ _ _ _ CP).
    apply does_row. intros d w Hd'. f_equal. unfold o, r. ring.
  - assert (Ei : kept i = i) by (unfold kept in *; destruct (i =? -1)%Z; [discriminate|reflexivity]). rewrite Ei in *.
    intros w w' Ew. rewrite (CP w w' Ew). reflexivity.
Qed.

Definition scaled (ls : list Z) (scales : list R) (ids : list Z) (m Q : nat) (q r d : nat) : R :=
  to_f32 (part ls (nth (r * Q + q) ids 0%Z) d * nth (q * length ls + d) scales 0%R).
Lemma codes_ok ls scales B n Q ids : ls <> [] -> Forall good ls -> (how_many ls < 2 ^ 24)%Z -> 0 < B -> 0 < Q -> (B = 1 \/ n <= 1) ->
  length ids = B * n * Q -> length scales = Q * length ls -> Forall (fun i => -1 <= i < how_many ls)%Z ids ->
  codes_from_indices ls scales B Q Q ids =
  ROk (map (fun p => scaled ls scales ids (B * n) Q (p / length ls / (B * n)) ((p / length ls) mod (B * n)) (p mod length ls)) (seq 0 (Q * B * n * length ls))).
Proof.
  intros Hn Hg Hb HB HQ Hone Hl Hs Hi. unfold codes_from_indices. set (D := length ls). assert (HD : 0 < D) by (unfold D; destruct ls; [congruence|cbn; lia]).
  destruct (codebooks ls Q) as [cb| | |] eqn:Hc; try (unfold codebooks in Hc; rewrite codebook_ok in Hc by assumption; discriminate).
  cbn [rbind]. unfold reshape_indices. assert (El : length ids = n * (B * Q)) by (rewrite Hl; ring). rewrite El. rewrite Nat.mod_mul by nia. cbn [Nat.eqb].
  unfold ndiv. replace (B * Q =? 0) with false by nia. cbn [rbind]. rewrite Nat.div_mul by nia. replace (Q <? Q) with false by lia. cbn [rbind].
  rewrite unmask_ok. cbn [rbind]. rewrite size_ok by (auto; lia). cbn [rbind]. assert (Eg := gather_ok ls B n Q ids cb Hn Hg Hb HB HQ Hl Hi Hc). fold D in Eg. rewrite Eg. cbn [rbind].
  unfold apply_scales. replace ((1 <? B) && (1 <? n)) with false by lia.
  set (M := B * n). replace (Q * B * n * D) with (Q * M * D) by (unfold M; ring).
  apply (nest_ok (fun q k b => for_up D 0 (fun d b => do x <- rd _ ((q * M + k) * D + d); do s <- rd scales (q * D + d); wr b ((q * M + k) * D + d) (to_f32 (x * s))) b)).
  intros q k Hq Hk. apply does_row. intros d b Hd. rewrite (rd_ok _ ((q * M + k) * D + d) (part ls (nth (k * Q + q) ids 0%Z) d)).
  2:{ rewrite nth_error_map_seq by (apply index_bound; [apply index_bound; assumption|exact Hd]). cbn [Nat.add].
      rewrite div_mul_add, mod_mul_add by lia. rewrite div_mul_add, mod_mul_add by lia. reflexivity. }
  cbn [rbind]. rewrite (rd_ok _ _ _ (nth_of scales (q * D + d) 0%R ltac:(rewrite Hs; fold D; apply index_bound; assumption))). cbn [rbind].
  rewrite div_mul_add, mod_mul_add by lia. rewrite div_mul_add, mod_mul_add by lia. reflexivity.
Qed.

Lemma output_ok ls scales B n Q ids : ls <> [] -> Forall good ls -> (how_many ls < 2 ^ 24)%Z -> 0 < B -> 0 < Q -> (B = 1 \/ n <= 1) ->
  length ids = B * n * Q -> length scales = Q * length ls -> Forall (fun i => -1 <= i < how_many ls)%Z ids ->
  output_from_indices ls scales B Q Q ids =
  ROk (map (fun p => fold_left (fun s q => to_f32 (s + scaled ls scales ids (B * n) Q q (p / length ls) (p mod length ls))) (seq 0 Q) 0%R) (seq 0 (B * n * length ls))).
Proof.
  intros Hn Hg Hb HB HQ Hone Hl Hs Hi. unfold output_from_indices. rewrite (codes_ok ls scales B n Q ids) by assumption. cbn [rbind].
  set (D := length ls). assert (HD : 0 < D) by (unfold D; destruct ls; [congruence|cbn; lia]).
  rewrite map_length, seq_length. unfold ndiv. replace (Q =? 0) with false by lia. cbn [rbind].
  set (M := B * n). replace (Q * B * n * D) with ((M * D) * Q) by (unfold M; ring). rewrite Nat.div_mul by lia.
  apply each_n. intros p b Hp. set (f := fun q => scaled ls scales ids M Q q (p / D) (p mod D)).
  destruct (for_up_inv (fun k s => s = fold_left (fun s q => to_f32 (s + f q)) (seq 0 k) 0%R)
    (fun q s => do x <- rd (map (fun p => scaled ls scales ids M Q (p / D / M) ((p / D) mod M) (p mod D)) (seq 0 (M * D * Q))) (q * (M * D) + p); ROk (to_f32 (s + x))) Q 0 0%R) as (s & E & V).
  - reflexivity.
  - intros q s Hq ->. destruct (split_mod p M D Hp) as (A1 & A2 & A3).
    rewrite (rd_ok _ (q * (M * D) + p) (f q)).
    2:{ rewrite nth_error_map_seq by (rewrite (Nat.mul_comm (M * D) Q); apply index_bound; [lia|exact Hp]). cbn [Nat.add].
        replace (q * (M * D) + p) with ((q * M + p / D) * D + p mod D) by (rewrite A3 at 3; ring).
        rewrite div_mul_add, mod_mul_add by lia. rewrite div_mul_add, mod_mul_add by lia. reflexivity. }
    cbn [rbind]. eexists. split; [reflexivity|]. rewrite seq_app, fold_left_app. reflexivity.
  - rewrite E. cbn [rbind]. rewrite V. reflexivity.
Qed.
