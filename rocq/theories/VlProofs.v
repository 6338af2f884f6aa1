(** Loops which write: a nest of loops performs a list of writes. *)
From Verif Require Import Base DTypeModel ParamModel TensorModel VlModel.
From Verif Require AotModel AotProofs AotGraph.
Local Open Scope nat_scope.

Lemma wr_ok : forall {A} (b : list A) p x, p < length b ->
  exists b', wr b p x = ROk b' /\ length b' = length b /\ nth_error b' p = Some x /\
    forall q, q <> p -> nth_error b' q = nth_error b q.
Proof.
  intros A b p x H. unfold wr. replace (p <? length b) with true by lia. eexists. split; [reflexivity|].
  assert (Lf : length (firstn p b) = p) by (rewrite firstn_length; lia).
  split; [rewrite app_length; cbn [length]; rewrite skipn_length; lia|]. split.
  - rewrite nth_error_app2 by lia. rewrite Lf, Nat.sub_diag. reflexivity.
  - intros q Hq. destruct (Nat.lt_ge_cases q p) as [L|L].
    + rewrite nth_error_app1 by lia. rewrite <- (firstn_skipn p b) at 2. rewrite nth_error_app1 by lia. reflexivity.
    + rewrite nth_error_app2 by lia. rewrite Lf. destruct (q - p) as [|k] eqn:E; [lia|]. cbn [nth_error].
      rewrite <- (firstn_skipn (S p) b) at 2. assert (Lg : length (firstn (S p) b) = S p) by (rewrite firstn_length; lia).
      rewrite nth_error_app2 by lia. rewrite Lg. f_equal. lia.
Qed.
Lemma rd_ok : forall {A} (b : list A) p x, nth_error b p = Some x -> rd b p = ROk x.
Proof. intros A b p x H. unfold rd. rewrite H. reflexivity. Qed.

Lemma nth_error_ext {X} (a : list X) : forall b, (forall j, nth_error a j = nth_error b j) -> a = b.
Proof.
  induction a as [|x a IH]; intros [|y b] H; auto; try (specialize (H 0); discriminate).
  f_equal; [specialize (H 0); cbn in H; congruence|]. apply IH. intro j. exact (H (S j)).
Qed.
Lemma nth_error_map_seq : forall {X} (f : nat -> X) s n k, k < n -> nth_error (map f (seq s n)) k = Some (f (s + k)).
Proof.
  intros X f s n. revert s. induction n as [|n IH]; intros s k H; [lia|]. destruct k as [|k]; cbn [seq map nth_error].
  - rewrite Nat.add_0_r. reflexivity.
  - rewrite IH by lia. f_equal. f_equal. lia.
Qed.

Definition write {A} (w : nat * A) (b : list A) : res (list A) := wr b (fst w) (snd w).
Fixpoint put_all {A} (ws : list (nat * A)) (b : list A) : res (list A) :=
  match ws with [] => ROk b | w :: r => do b' <- write w b; put_all r b' end.
Lemma put_all_app : forall {A} (u v : list (nat * A)) b, put_all (u ++ v) b = rbind (put_all u b) (put_all v).
Proof.
  intros A u. induction u as [|w u IH]; intros v b; cbn [app put_all]; [reflexivity|].
  destruct (write w b) as [b'| | |]; cbn [rbind]; auto.
Qed.
Lemma put_all_inv : forall {A} (u v : list (nat * A)) b b', put_all (u ++ v) b = ROk b' ->
  exists b1, put_all u b = ROk b1 /\ put_all v b1 = ROk b'.
Proof.
  intros A u v b b' H. rewrite put_all_app in H. destruct (put_all u b) as [b1| | |]; try discriminate. exists b1. auto.
Qed.

(** [body] performs the writes [ws]. *)
Definition does {A} (body : list A -> res (list A)) (ws : list (nat * A)) : Prop :=
  forall b b', put_all ws b = ROk b' -> body b = ROk b'.
Lemma does_one : forall {A} p (x : A), does (fun b => wr b p x) [(p, x)].
Proof. intros A p x b b' H. cbn [put_all] in H. unfold write in H. cbn [fst snd] in H. destruct (wr b p x); cbn [rbind] in H; auto. Qed.
Lemma does_two : forall {A} p (x : A) q y, does (fun b => do b <- wr b p x; wr b q y) [(p, x); (q, y)].
Proof.
  intros A p x q y b b' H. cbn [put_all] in H. unfold write in H. cbn [fst snd] in H. destruct (wr b p x); cbn [rbind] in *; auto; try discriminate.
  destruct (wr a q y); cbn [rbind] in *; auto.
Qed.
Lemma does_loop : forall {A} (body : nat -> list A -> res (list A)) ws n s,
  (forall i, s <= i < s + n -> does (body i) (ws i)) -> does (for_up n s body) (flat_map ws (seq s n)).
Proof.
  intros A body ws n. induction n as [|n IH]; intros s H b b' E; cbn [seq flat_map AotModel.for_up] in *; [exact E|].
  destruct (put_all_inv _ _ _ _ E) as (b1 & E1 & E2). rewrite (H s) with (b' := b1) by (auto; lia). cbn [rbind].
  apply IH; auto. intros i Hi. apply H. lia.
Qed.
Lemma does_ext : forall {A} (f g : list A -> res (list A)) ws, (forall b, f b = g b) -> does g ws -> does f ws.
Proof. intros A f g ws E D b b' H. rewrite E. apply D. exact H. Qed.

(** With a counter. *)
Definition counts {A} (body : nat * list A -> res (nat * list A)) (k : nat) (ws : nat -> list (nat * A)) : Prop :=
  forall c b b', put_all (ws c) b = ROk b' -> body (c, b) = ROk (c + k, b').
Lemma counts_loop : forall {A} (body : nat -> nat * list A -> res (nat * list A)) k ws n s,
  (forall i, s <= i < s + n -> counts (body i) k (ws i)) ->
  counts (for_up n s body) (n * k) (fun c => flat_map (fun i => ws i (c + (i - s) * k)) (seq s n)).
Proof.
  intros A body k ws n. induction n as [|n IH]; intros s H c b b' E; cbn [seq flat_map AotModel.for_up] in *.
  - cbn [put_all] in E. injection E as <-. do 2 f_equal. lia.
  - destruct (put_all_inv _ _ _ _ E) as (b1 & E1 & E2). rewrite Nat.sub_diag, Nat.mul_0_l, Nat.add_0_r in E1.
    rewrite (H s) with (b' := b1) by (auto; lia). cbn [rbind].
    rewrite (IH (S s)) with (b' := b'); [do 2 f_equal; lia|intros i Hi; apply H; lia|].
    rewrite <- E2. f_equal. rewrite !flat_map_concat_map. f_equal. apply map_ext_in. intros i Hi. apply in_seq in Hi.
    f_equal. replace (i - s) with (S (i - S s)) by lia. cbn [Nat.mul]. lia.
Qed.
(** Two lists at once. *)
Definition does2 {A B} (body : list A * list B -> res (list A * list B)) (u : list (nat * A)) (v : list (nat * B)) : Prop :=
  forall a a' b b', put_all u a = ROk a' -> put_all v b = ROk b' -> body (a, b) = ROk (a', b').
Lemma does2_loop : forall {A B} (body : nat -> list A * list B -> res (list A * list B)) u v n s,
  (forall i, s <= i < s + n -> does2 (body i) (u i) (v i)) -> does2 (for_up n s body) (flat_map u (seq s n)) (flat_map v (seq s n)).
Proof.
  intros A B body u v n. induction n as [|n IH]; intros s H a a' b b' Ea Eb; cbn [seq flat_map AotModel.for_up] in *.
  - cbn [put_all] in *. congruence.
  - destruct (put_all_inv _ _ _ _ Ea) as (a1 & Ea1 & Ea2). destruct (put_all_inv _ _ _ _ Eb) as (b1 & Eb1 & Eb2).
    rewrite (H s) with (a' := a1) (b' := b1) by (auto; lia). cbn [rbind]. apply IH; auto. intros i Hi. apply H. lia.
Qed.

(** What a list of writes does: in range, and never two values for one place. *)
Lemma put_all_ok : forall {A} (ws : list (nat * A)) b,
  (forall p v, In (p, v) ws -> p < length b) ->
  (forall p v v', In (p, v) ws -> In (p, v') ws -> v = v') ->
  exists b', put_all ws b = ROk b' /\ length b' = length b /\
    (forall p v, In (p, v) ws -> nth_error b' p = Some v) /\
    (forall p, (forall v, ~ In (p, v) ws) -> nth_error b' p = nth_error b p).
Proof.
  intros A ws. induction ws as [|[p x] ws IH]; intros b Hr Hf.
  - exists b. split; [reflexivity|]. split; [reflexivity|]. split; [intros p v []|auto].
  - destruct (wr_ok b p x) as (b1 & E1 & L1 & V1 & O1); [apply (Hr p x); left; reflexivity|].
    destruct (IH b1) as (b' & E & L & V & O).
    { intros q v H. rewrite L1. apply (Hr q v). right. exact H. }
    { intros q v v' H H'. apply (Hf q v v'); right; auto. }
    exists b'. split; [cbn [put_all]; unfold write; cbn [fst snd]; rewrite E1; exact E|]. split; [congruence|].
    assert (Dec : forall q, (exists v, In (q, v) ws) \/ (forall v, ~ In (q, v) ws)).
    { intro q. destruct (in_dec Nat.eq_dec q (map fst ws)) as [I|I].
      - left. apply in_map_iff in I as ([q' v] & Eq & I). cbn [fst] in Eq. subst. exists v. exact I.
      - right. intros v I'. apply I. apply in_map_iff. exists (q, v). auto. }
    split.
    + intros q v [Hq|Hq]; [|apply V; exact Hq]. injection Hq as <- <-.
      destruct (Dec p) as [[v I]|N]; [|rewrite O by auto; exact V1].
      rewrite (V p v I). f_equal. apply (Hf p v x); [right; exact I|left; reflexivity].
    + intros q Hq. rewrite O; [apply O1|].
      * intros ->. apply (Hq x). left. reflexivity.
      * intros v I. apply (Hq v). right. exact I.
Qed.
(** Writes filling a block of places. *)
Lemma put_block : forall {A} (ws : list (nat * A)) b q n f,
  q + n <= length b -> (forall p v, In (p, v) ws -> exists k, k < n /\ p = q + k /\ v = f k) ->
  (forall k, k < n -> In (q + k, f k) ws) ->
  put_all ws b = ROk (firstn q b ++ map f (seq 0 n) ++ skipn (q + n) b).
Proof.
  intros A ws b q n f Hl Hw Hc.
  destruct (put_all_ok ws b) as (b' & E & L & V & O).
  { intros p v H. destruct (Hw p v H) as (k & K1 & K2 & _). lia. }
  { intros p v v' H H'. destruct (Hw p v H) as (k & K1 & K2 & K3). destruct (Hw p v' H') as (k' & K1' & K2' & K3').
    replace k' with k in K3' by lia. congruence. }
  rewrite E. f_equal. apply nth_error_ext. intro j.
  assert (Lf : length (firstn q b) = q) by (rewrite firstn_length; lia).
  assert (Lm : length (map f (seq 0 n)) = n) by (rewrite map_length, seq_length; reflexivity).
  destruct (Nat.lt_ge_cases j q) as [J|J].
  - rewrite nth_error_app1 by lia. rewrite O.
    + rewrite <- (firstn_skipn q b) at 1. rewrite nth_error_app1 by lia. reflexivity.
    + intros v I. destruct (Hw _ _ I) as (k & _ & K & _). lia.
  - rewrite nth_error_app2 by lia. rewrite Lf. destruct (Nat.lt_ge_cases j (q + n)) as [J2|J2].
    + rewrite nth_error_app1 by lia. rewrite nth_error_map_seq by lia. cbn [Nat.add].
      apply V. replace j with (q + (j - q)) at 1 by lia. apply Hc. lia.
    + rewrite nth_error_app2 by lia. rewrite Lm. rewrite O.
      * rewrite <- (firstn_skipn (q + n) b) at 1. assert (Lg : length (firstn (q + n) b) = q + n) by (rewrite firstn_length; lia).
        rewrite nth_error_app2 by lia. rewrite Lg. f_equal. lia.
      * intros v I. destruct (Hw _ _ I) as (k & K1 & K2 & _). lia.
Qed.
(** The whole list. *)
Lemma put_whole : forall {A} (ws : list (nat * A)) b f,
  (forall p v, In (p, v) ws -> p < length b /\ v = f p) -> (forall p, p < length b -> exists v, In (p, v) ws) ->
  put_all ws b = ROk (map f (seq 0 (length b))).
Proof.
  intros A ws b f Hw Hc. rewrite (put_block ws b 0 (length b) f).
  - cbn [firstn app Nat.add]. rewrite skipn_all, app_nil_r. reflexivity.
  - lia.
  - intros p v I. destruct (Hw p v I) as [H1 H2]. exists p. auto.
  - intros k Hk. cbn [Nat.add]. destruct (Hc k Hk) as [v I]. destruct (Hw k v I) as [_ ->] . exact I.
Qed.

(** Enumerations in blocks. *)
Lemma map_seq_mul : forall {X} (f : nat -> X) a b,
  map f (seq 0 (a * b)) = flat_map (fun i => map (fun j => f (i * b + j)) (seq 0 b)) (seq 0 a).
Proof.
  intros X f a b. induction a as [|a IH]; [reflexivity|].
  rewrite seq_S, flat_map_app. cbn [flat_map Nat.add]. rewrite app_nil_r, <- IH.
  replace (S a * b) with (a * b + b) by lia. rewrite seq_app, map_app. f_equal. cbn [Nat.add].
  apply AotGraph.map_seq_eq. intros j Hj. reflexivity.
Qed.
Lemma flat_map_ext_seq : forall {X} (f g : nat -> list X) s n, (forall i, s <= i < s + n -> f i = g i) ->
  flat_map f (seq s n) = flat_map g (seq s n).
Proof.
  intros X f g s n H. rewrite !flat_map_concat_map. f_equal. apply map_ext_in. intros i Hi. apply in_seq in Hi. auto.
Qed.
Lemma map_ext_seq : forall {X} (f g : nat -> X) s n, (forall i, s <= i < s + n -> f i = g i) -> map f (seq s n) = map g (seq s n).
Proof. intros X f g s n H. apply map_ext_in. intros i Hi. apply in_seq in Hi. auto. Qed.
Lemma flat_map_map_seq : forall {X Y} (g : X -> list Y) (f : nat -> X) l, flat_map g (map f l) = flat_map (fun i => g (f i)) l.
Proof. intros X Y g f l. induction l as [|x l IH]; cbn [map flat_map]; congruence. Qed.
Lemma flat_map_flat_map : forall {X Y Z} (f : X -> list Y) (g : Y -> list Z) l,
  flat_map g (flat_map f l) = flat_map (fun x => flat_map g (f x)) l.
Proof. intros X Y Z f g l. induction l as [|x l IH]; cbn [flat_map]; [reflexivity|]. rewrite flat_map_app. congruence. Qed.
Lemma in_loop : forall {X} (f : nat -> list X) s n x, In x (flat_map f (seq s n)) <-> exists i, s <= i < s + n /\ In x (f i).
Proof.
  intros X f s n x. rewrite in_flat_map. split; intros (i & H1 & H2); exists i; [rewrite in_seq in H1|rewrite in_seq]; auto.
Qed.
Lemma div_mul_add : forall a b c, c < b -> (a * b + c) / b = a.
Proof. intros a b c H. rewrite Nat.add_comm, Nat.div_add, Nat.div_small by lia. reflexivity. Qed.
Lemma mod_mul_add : forall a b c, c < b -> (a * b + c) mod b = c.
Proof. intros a b c H. rewrite Nat.add_comm, Nat.mod_add, Nat.mod_small by lia. reflexivity. Qed.
Lemma ndiv_ok : forall a b, 0 < b -> ndiv a b = ROk (a / b).
Proof. intros a b H. unfold ndiv. replace (b =? 0) with false by lia. reflexivity. Qed.
Lemma nmod_ok : forall a b, 0 < b -> nmod a b = ROk (a mod b).
Proof. intros a b H. unfold nmod. replace (b =? 0) with false by lia. reflexivity. Qed.

(** Writing a given list. *)
Lemma put_list : forall {A} (ws : list (nat * A)) b target, length b = length target ->
  (forall p v, In (p, v) ws -> nth_error target p = Some v) -> (forall p, p < length target -> exists v, In (p, v) ws) ->
  put_all ws b = ROk target.
Proof.
  intros A ws b target Hl Hw Hc. destruct (put_all_ok ws b) as (b' & E & L & V & O).
  - intros p v I. rewrite Hl. apply nth_error_Some. rewrite (Hw p v I). discriminate.
  - intros p v v' I I'. apply Hw in I, I'. congruence.
  - rewrite E. f_equal. apply nth_error_ext. intro j. destruct (Nat.lt_ge_cases j (length target)) as [J|J].
    + destruct (Hc j J) as [v I]. rewrite (V j v I), (Hw j v I). reflexivity.
    + rewrite (proj2 (nth_error_None b' j)), (proj2 (nth_error_None target j)) by lia. reflexivity.
Qed.
Lemma nth_error_flat : forall {X Y} (f : X -> list Y) k l i j, Forall (fun x => length (f x) = k) l -> j < k ->
  nth_error (flat_map f l) (i * k + j) = match nth_error l i with Some x => nth_error (f x) j | None => None end.
Proof.
  intros X Y f k l. induction l as [|x l IH]; intros i j H Hj; cbn [flat_map].
  - rewrite (proj2 (nth_error_None [] _)) by (cbn [length]; lia). destruct i; reflexivity.
  - assert (Hx := Forall_inv H). cbv beta in Hx. destruct i as [|i]; cbn [nth_error].
    + cbn [Nat.mul Nat.add]. apply nth_error_app1. lia.
    + rewrite nth_error_app2 by lia. replace (S i * k + j - length (f x)) with (i * k + j) by lia. apply IH; [apply (Forall_inv_tail H)|exact Hj].
Qed.
Lemma nth_error_seq : forall s n k, k < n -> nth_error (seq s n) k = Some (s + k).
Proof. intros s n k H. rewrite <- (map_id (seq s n)). apply (nth_error_map_seq (fun x => x)). exact H. Qed.
Lemma index_split : forall p n k, p < n * k -> exists i j, i < n /\ j < k /\ p = i * k + j.
Proof.
  intros p n k H. assert (k <> 0) by (intros ->; lia). exists (p / k), (p mod k).
  split; [apply Nat.div_lt_upper_bound; lia|]. split; [apply Nat.mod_upper_bound; lia|]. rewrite (Nat.mul_comm (p / k)). apply Nat.div_mod. lia.
Qed.
Lemma index_bound : forall i j n k, i < n -> j < k -> i * k + j < n * k.
Proof. intros i j n k Hi Hj. assert ((i + 1) * k <= n * k) by (apply Nat.mul_le_mono_r; lia). lia. Qed.
