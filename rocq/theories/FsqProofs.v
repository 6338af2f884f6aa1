(** Proofs about the finite scalar quantisation model. *)
From Verif Require Import Base DTypeModel ParamModel AotModel AotProofs VlModel VlProofs MoeProofs QuantModel CpmAudioModel CpmAudio FsqModel FsqSpec FsqRound.
From Coq Require Import Reals Lra.
From Flocq Require Import Core.
Import ListNotations.
Open Scope nat_scope.

Lemma each_ok {A} (body : nat -> list A -> res (list A)) (f : nat -> A) b0 :
  (forall i b, i < length b0 -> body i b = wr b i (f i)) -> for_up (length b0) 0 body b0 = ROk (map f (seq 0 (length b0))).
Proof.
  intro H. assert (D : does (for_up (length b0) 0 body) (flat_map (fun i => [(i, f i)]) (seq 0 (length b0)))).
  { apply does_loop. intros i Hi. apply does_ext with (g := fun b => wr b i (f i)); [intro b; apply H; lia|apply does_one]. }
  apply D. apply put_whole.
  - intros p v I. apply in_loop in I. destruct I as (i & Hi & [I|[]]). injection I as <- <-. split; [lia|reflexivity].
  - intros p Hp. exists (f p). apply in_loop. exists p. split; [lia|]. left. reflexivity.
Qed.
Lemma each_n {A} (body : nat -> list A -> res (list A)) (f : nat -> A) n x :
  (forall i b, i < n -> body i b = wr b i (f i)) -> for_up n 0 body (repeat x n) = ROk (map f (seq 0 n)).
Proof. intro H. assert (E := each_ok body f (repeat x n)). rewrite repeat_length in E. apply E. exact H. Qed.
Lemma two_ok {A} (body : nat -> list A -> res (list A)) (f : nat -> A) n k x :
  (forall i, i < n -> does (body i) (map (fun d => (i * k + d, f (i * k + d))) (seq 0 k))) ->
  for_up n 0 body (repeat x (n * k)) = ROk (map f (seq 0 (n * k))).
Proof.
  intro H. assert (D : does (for_up n 0 body) (flat_map (fun i => map (fun d => (i * k + d, f (i * k + d))) (seq 0 k)) (seq 0 n))).
  { apply does_loop. intros i Hi. apply H. lia. }
  assert (P := put_whole (flat_map (fun i => map (fun d => (i * k + d, f (i * k + d))) (seq 0 k)) (seq 0 n)) (repeat x (n * k)) f).
  rewrite repeat_length in P. apply D. apply P.
  - intros p v I. apply in_loop in I. destruct I as (i & Hi & I). apply in_map_iff in I. destruct I as (d & E & Hd).
    apply in_seq in Hd. injection E as <- <-. split; [apply index_bound; lia|reflexivity].
  - intros p Hp. destruct (index_split p n k Hp) as (i & j & Hi & Hj & ->). exists (f (i * k + j)). apply in_loop. exists i. split; [lia|].
    apply in_map_iff. exists j. split; [reflexivity|]. apply in_seq. lia.
Qed.
Lemma does_row {A} (body : nat -> list A -> res (list A)) (p : nat -> nat) (f : nat -> A) k :
  (forall d b, d < k -> body d b = wr b (p d) (f d)) -> does (for_up k 0 body) (map (fun d => (p d, f d)) (seq 0 k)).
Proof.
  intro H. replace (map (fun d => (p d, f d)) (seq 0 k)) with (flat_map (fun d => [(p d, f d)]) (seq 0 k)) by (induction (seq 0 k) as [|y l IH]; cbn; congruence).
  apply does_loop. intros i Hi. apply does_ext with (g := fun b => wr b (p i) (f i)); [intro b; apply H; lia|apply does_one].
Qed.

(** ** Integers *)
Lemma i32_ok z : (- 2 ^ 31 <= z < 2 ^ 31)%Z -> i32 z = ROk z.
Proof. intro H. unfold i32. replace _ with true by lia. reflexivity. Qed.
Lemma i2f_ok z : (Z.abs z < 2 ^ 24)%Z -> i2f z = IZR z.
Proof. apply int32. Qed.
Lemma f2i_int z : (- 2 ^ 31 <= z < 2 ^ 31)%Z -> f2i (IZR z) = ROk z.
Proof. intro H. unfold f2i. rewrite Ztrunc_IZR. apply i32_ok. exact H. Qed.
Lemma fdiv_ok x y : y <> 0%R -> fdiv x y = ROk (to_f32 (x / y)).
Proof. intro H. unfold fdiv. destruct (Req_EM_T y 0); [contradiction|reflexivity]. Qed.

Definition good (l : Z) : Prop := (2 <= l)%Z.
Lemma many_cons l ls : how_many (l :: ls) = (l * how_many ls)%Z. Proof. reflexivity. Qed.
Lemma many_pos ls : Forall good ls -> (1 <= how_many ls)%Z.
Proof. induction 1 as [|l ls Hl _ IH]; [unfold how_many; cbn [fold_right number]; lia|]. rewrite many_cons. unfold good in Hl. nia. Qed.
Lemma many_app a b : how_many (a ++ b) = (how_many a * how_many b)%Z.
Proof. unfold how_many. induction a as [|x a IH]; cbn [app fold_right]; [lia|]. rewrite IH. ring. Qed.
Lemma forall_firstn {X} (P : X -> Prop) n l : Forall P l -> Forall P (firstn n l).
Proof. intro H. rewrite <- (firstn_skipn n l) in H. apply Forall_app in H. tauto. Qed.
Lemma forall_skipn {X} (P : X -> Prop) n l : Forall P l -> Forall P (skipn n l).
Proof. intro H. rewrite <- (firstn_skipn n l) in H. apply Forall_app in H. tauto. Qed.
Lemma many_le n ls : Forall good ls -> (1 <= how_many (firstn n ls) <= how_many ls)%Z.
Proof.
  intro H. split; [apply many_pos, forall_firstn, H|]. assert (E := many_app (firstn n ls) (skipn n ls)). rewrite firstn_skipn in E.
  assert (A := many_pos (firstn n ls) (forall_firstn _ _ _ H)). assert (B := many_pos (skipn n ls) (forall_skipn _ _ _ H)). nia.
Qed.
Lemma many_S n ls l : nth_error ls n = Some l -> how_many (firstn (S n) ls) = (how_many (firstn n ls) * l)%Z.
Proof.
  revert ls. induction n as [|n IH]; intros [|x ls] H; try discriminate.
  - injection H as <-. cbn [firstn]. unfold how_many. cbn [fold_right]. ring.
  - cbn [firstn]. unfold how_many in *. cbn [fold_right]. assert (E := IH ls H). cbn [firstn] in E. rewrite E. ring.
Qed.
Lemma level_le n ls l : Forall good ls -> nth_error ls n = Some l -> (2 <= l <= how_many ls)%Z.
Proof.
  intros H N. assert (G : good l) by (rewrite Forall_forall in H; apply H; eapply nth_error_In; exact N). split; [exact G|].
  assert (E := many_S n ls l N). destruct (many_le (S n) ls H). destruct (many_le n ls H). unfold good in G. nia.
Qed.

(** ** The basis *)
Definition weight (ls : list Z) (d : nat) : Z := how_many (firstn d ls).
Lemma basis_ok ls : ls <> [] -> Forall good ls -> (how_many ls < 2 ^ 31)%Z -> basis_vec ls = ROk (map (weight ls) (seq 0 (length ls))).
Proof.
  intros Hn Hg Hb. unfold basis_vec. destruct ls as [|l0 ls0] eqn:El; [congruence|]. rewrite <- El in *. clear El l0 ls0.
  set (D := length ls). assert (HD : D <> 0) by (unfold D; destruct ls; [congruence|discriminate]).
  cbv zeta. set (b0 := 1%Z :: firstn (D - 1) ls).
  assert (L0 : length b0 = D) by (unfold b0; cbn [length]; rewrite firstn_length; fold D; lia). rewrite L0.
  assert (B0 : forall j, 1 <= j -> j < D -> nth_error b0 j = nth_error ls (j - 1)).
  { intros [|j] H1 H2; [lia|]. unfold b0. cbn [nth_error]. replace (S j - 1) with j by lia.
    transitivity (nth_error (firstn (D - 1) ls ++ skipn (D - 1) ls) j); [|rewrite firstn_skipn; reflexivity].
    symmetry. apply nth_error_app1. rewrite firstn_length. fold D. lia. }
  destruct (for_up_inv (fun i b => length b = D /\ (forall j, j < i -> j < D -> nth_error b j = Some (weight ls j)) /\ (forall j, i <= j -> j < D -> nth_error b j = nth_error b0 j))
    (fun i b => do x <- rd b i; do y <- rd b (i - 1); do z <- i32 (x * y); wr b i z) (D - 1) 1 b0) as (b & E & Lb & V & _).
  - split; [exact L0|]. split; [|intros; reflexivity]. intros [|j] H1 H2; [|lia]. reflexivity.
  - intros j b Hj (Lb & V & O). assert (Hl : exists l, nth_error ls (j - 1) = Some l).
    { destruct (nth_error ls (j - 1)) as [l|] eqn:N; [exists l; reflexivity|]. apply nth_error_None in N. fold D in N. lia. }
    destruct Hl as (l & Hl). assert (Ej : nth_error b j = Some l) by (rewrite O, B0 by lia; exact Hl).
    rewrite (rd_ok _ _ _ Ej). cbn [rbind]. rewrite (rd_ok _ _ _ (V (j - 1) ltac:(lia) ltac:(lia))). cbn [rbind].
    assert (W : (l * weight ls (j - 1) = weight ls j)%Z).
    { unfold weight. replace j with (S (j - 1)) at 2 by lia. rewrite (many_S _ _ _ Hl). ring. }
    rewrite W. destruct (many_le j ls Hg) as (M1 & M2). fold (weight ls j) in M1, M2. rewrite i32_ok by lia. cbn [rbind].
    destruct (wr_ok b j (weight ls j)) as (b' & E' & L' & P & Q); [lia|]. exists b'. split; [exact E'|]. split; [lia|]. split.
    + intros k H1 H2. destruct (Nat.eq_dec k j) as [->|N]; [exact P|]. rewrite Q by exact N. apply V; lia.
    + intros k H1 H2. rewrite Q by lia. apply O; lia.
  - rewrite E. f_equal. apply nth_error_ext. intro j. destruct (Nat.lt_ge_cases j D) as [Hj|Hj].
    + rewrite V by lia. rewrite nth_error_map_seq by exact Hj. reflexivity.
    + transitivity (@None Z); [apply nth_error_None; lia|]. symmetry. apply nth_error_None. rewrite map_length, seq_length. fold D. exact Hj.
Qed.
Lemma size_ok ls : Forall good ls -> (how_many ls < 2 ^ 31)%Z -> codebook_size ls = ROk (how_many ls).
Proof.
  intros Hg Hb. unfold codebook_size.
  destruct (for_up_inv (fun i s => s = weight ls i) (fun i s => do l <- rd ls i; i32 (s * l)) (length ls) 0 1%Z) as (s & E & V).
  - reflexivity.
  - intros j s Hj ->. destruct (nth_error ls j) as [l|] eqn:N; [|apply nth_error_None in N; lia].
    rewrite (rd_ok _ _ _ N). cbn [rbind]. unfold weight. rewrite <- (many_S _ _ _ N). destruct (many_le (S j) ls Hg). rewrite i32_ok by lia.
    eexists. split; [reflexivity|]. rewrite Nat.add_1_r. reflexivity.
  - rewrite E, V. unfold weight. cbn [Nat.add]. rewrite firstn_all. reflexivity.
Qed.

(** ** Digits *)
Lemma digits_len ls ds : digits_of ls ds -> length ds = length ls.
Proof. induction 1; cbn; congruence. Qed.
Lemma number_bound ls ds : digits_of ls ds -> (0 <= number ls ds < how_many ls)%Z.
Proof. induction 1 as [|l d ls ds H _ IH]; [unfold how_many; cbn [fold_right number]; lia|]. rewrite many_cons. cbn [number]. nia. Qed.
Lemma digit_of ls : forall ds d l c, digits_of ls ds -> nth_error ls d = Some l -> nth_error ds d = Some c -> ((number ls ds / weight ls d) mod l = c)%Z.
Proof.
  induction ls as [|l0 ls IH]; intros ds d l c H; inversion H as [|a b c1 d1 H1 H2]; subst; intros Hl Hc; [destruct d; discriminate|].
  destruct d as [|d]; cbn [nth_error] in *.
  - injection Hl as <-. injection Hc as <-. unfold weight. cbn [firstn how_many fold_right number]. rewrite Z.div_1_r.
    rewrite Z.mul_comm, Z_mod_plus_full. apply Z.mod_small. lia.
  - unfold weight. cbn [firstn number]. change (how_many (l0 :: firstn d ls)) with (l0 * how_many (firstn d ls))%Z.
    assert (P : (0 <= how_many (firstn d ls))%Z).
    { assert (G : forall n xs, Forall (fun x => (0 < x)%Z) xs -> (0 <= how_many (firstn n xs))%Z).
      { induction n as [|n IHn]; intros [|x xs] Hx; cbn [firstn]; unfold how_many in *; cbn [fold_right]; try lia.
        assert (Q := IHn xs (Forall_inv_tail Hx)). assert (R1 := Forall_inv Hx). cbn in R1. nia. }
      apply G. clear - H2. induction H2; constructor; auto; lia. }
    rewrite <- Zdiv_Zdiv by lia. rewrite (Z.mul_comm l0 (number ls d1)), Z_div_plus by lia. rewrite (Z.div_small b l0) by lia. cbn [Z.add]. apply (IH d1 d l c); assumption.
Qed.
Lemma number_weights ls : forall ds, digits_of ls ds ->
  number ls ds = fold_left (fun s d => (s + nth d ds 0 * weight ls d)%Z) (seq 0 (length ls)) 0%Z.
Proof.
  assert (G : forall (f : nat -> Z) l a, fold_left (fun s d => (s + f d)%Z) l a = (a + fold_right (fun d s => f d + s) 0 l)%Z).
  { intros f l. induction l as [|x l IHl]; intro a; cbn [fold_left fold_right]; [lia|]. rewrite IHl. lia. }
  induction ls as [|l0 ls IH]; intros ds H; inversion H as [|a b c1 d1 H1 H2]; subst; [reflexivity|].
  rewrite G. cbn [length seq fold_right number]. rewrite (IH d1 H2), G. rewrite <- seq_shift.
  assert (M : forall l, fold_right (fun d s => (nth d (b :: d1) 0 * weight (l0 :: ls) d + s)%Z) 0%Z (map S l) = (l0 * fold_right (fun d s => nth d d1 0 * weight ls d + s) 0 l)%Z).
  { induction l as [|x l IHl]; cbn [map fold_right]; [lia|]. rewrite IHl. cbn [nth]. unfold weight. cbn [firstn].
    change (how_many (l0 :: firstn x ls)) with (l0 * how_many (firstn x ls))%Z. ring. }
  rewrite M. cbn [nth]. unfold weight at 2. cbn [firstn]. change (how_many []) with 1%Z. ring.
Qed.
Lemma fold_mono (f : nat -> Z) l : (forall d, In d l -> 0 <= f d)%Z -> forall a, (a <= fold_left (fun s d => s + f d) l a)%Z.
Proof.
  induction l as [|x l IH]; intros H a; cbn [fold_left]; [lia|]. assert (A := H x (or_introl eq_refl)).
  assert (B := IH (fun d I => H d (or_intror I)) (a + f x)%Z). lia.
Qed.
