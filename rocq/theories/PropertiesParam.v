(** Property theorems C11, C12, C13, C34, C35, C36 (model files, element types,
    parameter store). *)
From Verif Require Import Base DTypeModel ParamModel ParamSpec ParamProofs ParamMore.
Local Open Scope Z_scope.

(* ------------------------------------------------------------------ *)
(** ** C11: model file V2 *)

(** For every store the format can represent ([savable_v2]: whole tensors,
    names of at most 255 bytes without NUL, 1..16 dimensions), whatever order the
    map is iterated in and whatever ids are written, saving succeeds and loading
    (mapped or through a stream) gives a store with exactly the same names, types,
    shapes and bytes.  Missing: names longer than 255 bytes and views, for which
    the code does not keep the promise (refuted below). *)
Theorem C11_save_load_partial : forall mmap pid s,
  savable_v2 s ->
  exists file s', v2_write pid s = ROk file /\ v2_read mmap file = ROk s' /\ holds_same s s' true.
Proof. exact v2_save_load. Qed.

Definition ex_t (shape : list Z) (sname mem : list Z) : tensor :=
  mkT 16 shape (default_strides shape) 0 sname mem.   (* int8 tensors *)

(** A parameter whose name has 256 characters is saved and loaded without any
    error, but can no longer be found under its name. *)
Theorem C11_long_name_refuted :
  exists name t file s',
    whole t /\ ~ In 0 name /\
    v2_write (fun _ => 0) [(name, t)] = ROk file /\
    v2_read true file = ROk s' /\ v2_read false file = ROk s' /\
    pull name s' = RAbort.
Proof.
  exists (repeat 97 256), (ex_t [2] [] [5; 6]).
  eexists. eexists.
  split.
  { constructor; cbn [ex_t t_offset t_shape t_stride t_dtype t_mem].
    - reflexivity.
    - apply default_strides_row_major.
    - cbn; lia.
    - repeat constructor; lia.
    - lia.
    - exists 2. split; reflexivity.
    - vm_compute. reflexivity. }
  split. { intro H. apply repeat_spec in H. discriminate. }
  split. { vm_compute. reflexivity. }
  split. { vm_compute. reflexivity. }
  split. { vm_compute. reflexivity. }
  vm_compute. reflexivity.
Qed.

(** Two parameters whose names agree in the first 255 characters make a file that
    is written without error and cannot be loaded at all. *)
Theorem C11_colliding_names_refuted :
  exists n1 n2 t file,
    n1 <> n2 /\ v2_write (fun _ => 0) [(n1, t); (n2, t)] = ROk file /\
    v2_read true file = RAbort /\ v2_read false file = RAbort.
Proof.
  exists (repeat 97 255 ++ [98]), (repeat 97 255 ++ [99]), (ex_t [1] [] [5]).
  eexists. split; [intro H; apply app_inv_head in H; discriminate|].
  split; [vm_compute; reflexivity|]. split; vm_compute; reflexivity.
Qed.

(** Saving a view (columns 0..1 of a 2x4 tensor): the file stores the first bytes
    of the underlying storage, so the loaded tensor has the view's shape but other
    elements; the stream reader writes behind its buffer. *)
Theorem C11_view_refuted :
  exists base view file s' t',
    (* [view] shows elements 0,1,4,5 of [base] *)
    base = ex_t [2; 4] [] [10; 11; 12; 13; 14; 15; 16; 17] /\
    view = mkT 16 [2; 2] [4; 1] 0 [] (t_mem base) /\
    v2_write (fun _ => 0) [([118], view)] = ROk file /\
    v2_read true file = ROk s' /\ pull [118] s' = ROk t' /\
    t_shape t' = t_shape view /\
    elements view = [Some [10]; Some [11]; Some [14]; Some [15]] /\
    elements t' = [Some [10]; Some [11]; Some [12]; Some [13]] /\
    v2_read false file = RUB.
Proof.
  eexists. eexists. eexists. eexists. eexists.
  split; [reflexivity|]. split; [reflexivity|].
  split; [vm_compute; reflexivity|]. split; [vm_compute; reflexivity|].
  split; [vm_compute; reflexivity|]. split; [vm_compute; reflexivity|].
  split; [vm_compute; reflexivity|]. split; [vm_compute; reflexivity|].
  vm_compute; reflexivity.
Qed.

(* ------------------------------------------------------------------ *)
(** ** C12: model file V1 *)

(** Names, element types and bytes survive (shapes become one-dimensional, as
    the format has no room for them), provided each key is the name recorded in
    its tensor (only the total length matters) and tensors have fewer than 2^31
    elements.  Missing: the other cases, refuted below. *)
Theorem C12_save_load_partial : forall mmap s,
  savable_v1 s ->
  exists file s', v1_write s = ROk file /\ v1_read mmap file = ROk s' /\ holds_same s s' false.
Proof. exact v1_save_load. Qed.

(** Saving a tensor that was pushed under a name but never given one itself
    succeeds and so does (mapped) loading, but the loaded bytes are shifted; the
    stream reader runs over its descriptor buffer. *)
Theorem C12_unnamed_tensor_refuted :
  exists t file s' t',
    whole t /\ t_mem t = [51; 52; 53] /\
    push [119] t [] = ROk [([119], t)] /\
    v1_write [([119], t)] = ROk file /\
    v1_read true file = ROk s' /\ pull [119] s' = ROk t' /\
    t_mem t' = [0; 51; 52] /\
    v1_read false file = RUB.
Proof.
  exists (ex_t [3] [] [51; 52; 53]). eexists. eexists. eexists.
  split.
  { constructor; cbn [ex_t t_offset t_shape t_stride t_dtype t_mem].
    - reflexivity.
    - apply default_strides_row_major.
    - cbn; lia.
    - repeat constructor; lia.
    - lia.
    - exists 3. split; reflexivity.
    - vm_compute. reflexivity. }
  split; [reflexivity|]. split; [reflexivity|].
  split; [vm_compute; reflexivity|]. split; [vm_compute; reflexivity|].
  split; [vm_compute; reflexivity|]. split; [vm_compute; reflexivity|].
  vm_compute; reflexivity.
Qed.

(** A float32 parameter of 2^31 elements (8 GiB) cannot be loaded from a V1 file:
    its element count is truncated to a negative int and the tensor's range
    leaves every realistic file. *)
Theorem C12_large_tensor_refuted : forall file off name s,
  0 <= off -> zlen file < 2 ^ 63 ->
  v1_load1 true file (mkMeta name (2 ^ 31 * 4) off 0) s = RUB.
Proof.
  intros file off name s Ho Hf. unfold v1_load1.
  change (storage_size _ _) with (@ROk Z (2 ^ 64 - 2 ^ 33)).
  cbn [rbind m_off]. unfold read_bytes, bytes_at.
  match goal with |- context [if ?c then _ else _] => replace c with false by lia end.
  reflexivity.
Qed.

(* ------------------------------------------------------------------ *)
(** ** C13: sections *)

(** V2, every store that can be written (no restriction on names, shapes or
    types; sizes below 2^64): the offsets and sizes recorded in the file describe
    ranges behind the descriptor table, inside the file, in order, pairwise
    disjoint, each holding the parameter's bytes. *)
Theorem C13_v2_sections : forall pid s file,
  zlen s < 2 ^ 32 -> 532 + 352 * zlen s + total_bytes s < 2 ^ 64 ->
  v2_write pid s = ROk file ->
  sections_ok s file (532 + 352 * zlen s) (v2_size_of file) (v2_offset_of file).
Proof. exact v2_sections. Qed.

(** V1: the same when the stores' tensors carry their names. *)
Theorem C13_v1_sections_partial : forall s file,
  savable_v1 s -> v1_write s = ROk file ->
  sections_ok s file (v1_pos s (length s)) (v1_size_of s file) (v1_offset_of s file).
Proof. exact v1_sections. Qed.

(** V1 with an unnamed tensor: the recorded range starts inside the descriptor
    table. *)
Theorem C13_v1_sections_refuted :
  exists s file, NoDup (map fst s) /\ (forall n t, In (n, t) s -> whole t) /\
    v1_write s = ROk file /\ v1_offset_of s file 0 < v1_pos s (length s).
Proof.
  exists [([119], ex_t [3] [] [51; 52; 53])]. eexists.
  split. { repeat constructor; intros []. }
  split.
  { intros n t [H|[]]. injection H as <- <-.
    constructor; cbn [ex_t t_offset t_shape t_stride t_dtype t_mem].
    - reflexivity.
    - apply default_strides_row_major.
    - cbn; lia.
    - repeat constructor; lia.
    - lia.
    - exists 3. split; reflexivity.
    - vm_compute. reflexivity. }
  split; [vm_compute; reflexivity|]. vm_compute. reflexivity.
Qed.

(** A store that meets the hypotheses of C11-C13: two parameters with different
    types and ranks, one of them empty. *)
Definition ex_store : store :=
  [([119; 49], mkT 17 [2; 3] [3; 1] 0 [119; 49] [1;0; 2;0; 3;0; 4;0; 5;0; 6;255]);
   ([98], mkT 16 [0] [1] 0 [98] [])].

Example C11_hypotheses_met : savable_v2 ex_store /\ savable_v1 ex_store.
Proof.
  assert (W : forall n t, In (n, t) ex_store -> whole t).
  { intros n t [H|[H|[]]]; injection H as <- <-.
    - constructor; cbn [t_offset t_shape t_stride t_dtype t_mem].
      + reflexivity.
      + apply (default_strides_row_major [2; 3]).
      + cbn; lia.
      + repeat constructor; lia.
      + lia.
      + exists 6. split; reflexivity.
      + vm_compute. reflexivity.
    - constructor; cbn [t_offset t_shape t_stride t_dtype t_mem].
      + reflexivity.
      + apply (default_strides_row_major [0]).
      + cbn; lia.
      + repeat constructor; lia.
      + lia.
      + exists 0. split; reflexivity.
      + vm_compute. reflexivity. }
  assert (N : NoDup (map fst ex_store)).
  { cbn. constructor; [intros [H|[]]; discriminate|]. constructor; [intros []|constructor]. }
  split; constructor; try exact W; try exact N.
  - intros n t [H|[H|[]]]; injection H as <- <-; split; cbn; try lia; intro K; cbn in K; lia.
  - vm_compute. reflexivity.
  - vm_compute. reflexivity.
  - intros n t [H|[H|[]]]; injection H as <- <-; vm_compute; reflexivity.
  - intros n t [H|[H|[]]]; injection H as <- <-; vm_compute; reflexivity.
  - vm_compute. reflexivity.
  - vm_compute. reflexivity.
Qed.

Example C11_concrete_round_trip :
  exists file s', v2_write (fun i => Z.of_nat i) ex_store = ROk file /\ zlen file = 532 + 704 + 12 /\
    v2_read true file = ROk s' /\ v2_read false file = ROk s' /\
    option_map t_shape (lookup [119; 49] s') = Some [2; 3].
Proof.
  eexists. eexists. split; [vm_compute; reflexivity|]. split; [vm_compute; reflexivity|].
  split; [vm_compute; reflexivity|]. split; [vm_compute; reflexivity|]. vm_compute; reflexivity.
Qed.

(* ------------------------------------------------------------------ *)
(** ** C34: damaged files *)

(** A file that does not start with the format's magic number is refused. *)
Theorem C34_wrong_magic_rejected : forall mmap file,
  (4 <= length file)%nat ->
  (to_i32 (number_at file 0 4) <> 20012 -> v1_read mmap file = RAbort) /\
  (to_i32 (number_at file 0 4) <> 0x519A -> v2_read mmap file = RAbort).
Proof.
  intros mmap file H.
  destruct file as [|a [|b [|c [|d r]]]]; cbn [length] in H; try lia.
  assert (E : number_at (a :: b :: c :: d :: r) 0 4 = le_val [a; b; c; d]).
  { apply (number_at_le_val [] [a; b; c; d] r 0 4 eq_refl eq_refl). }
  assert (R : read_uint (a :: b :: c :: d :: r) 0 4 = ROk (le_val [a; b; c; d])).
  { unfold read_uint. change (a :: b :: c :: d :: r) with ([] ++ [a; b; c; d] ++ r).
    rewrite (read_bytes_mid [] [a; b; c; d] r) by reflexivity. reflexivity. }
  split; intro N.
  - unfold v1_read. rewrite R. cbn [rbind]. unfold v1_magic.
    rewrite E in N. apply Z.eqb_neq in N. rewrite N. reflexivity.
  - unfold v2_read. rewrite R. cbn [rbind]. unfold v2_magic.
    rewrite E in N. apply Z.eqb_neq in N. rewrite N. reflexivity.
Qed.

(** A file cut off (as after a crash of the writer) is not refused: both loaders
    of both formats go on and touch bytes that do not exist. *)
Theorem C34_truncated_file_refuted :
  exists s f1 f2 k1 k2, savable_v1 s /\ savable_v2 s /\
    v1_write s = ROk f1 /\ v2_write (fun _ => 0) s = ROk f2 /\
    (k1 < length f1)%nat /\ (k2 < length f2)%nat /\
    v1_read true (firstn k1 f1) = RUB /\ v1_read false (firstn k1 f1) = RUB /\
    v2_read true (firstn k2 f2) = RUB /\ v2_read false (firstn k2 f2) = RUB.
Proof.
  exists ex_store. eexists. eexists. exists 70%nat, 1240%nat.
  split; [apply C11_hypotheses_met|]. split; [apply C11_hypotheses_met|].
  split; [vm_compute; reflexivity|]. split; [vm_compute; reflexivity|].
  split; [vm_compute; lia|]. split; [vm_compute; lia|].
  split; [vm_compute; reflexivity|]. split; [vm_compute; reflexivity|].
  split; vm_compute; reflexivity.
Qed.

(* ------------------------------------------------------------------ *)
(** ** C35: storage size of element types *)

(** The element types whose storage is allocated with the block layout of the
    C++ type kernels use for them: all declared types but five. *)
Theorem C35_block_sizes_partial : forall t lanes bytes,
  declaredBlock t = Some (lanes, bytes) ->
  ~ In t [145; 147; 152; 153; 155] ->
  lanesOfType t = lanes /\ bytesOfType t = bytes.
Proof.
  intros t lanes bytes H Hn.
  destruct t as [|p|p]; [cbn in H; injection H as <- <-; split; reflexivity | | discriminate].
  do 9 (try (destruct p as [p|p|]; cbn in H; try discriminate H)).
  all: injection H as <- <-; try (split; reflexivity).
  all: exfalso; apply Hn; cbn [In]; tauto.
Qed.

(** Tensors of the five 16-bit quantised types get half the bytes their elements
    occupy. *)
Theorem C35_block_sizes_refuted : forall t, In t [145; 147; 152; 153; 155] ->
  exists size, storage_size [8] t = ROk size /\
    declaredBlock t = Some (1, 2) /\ size < 8 * 2.
Proof.
  intros t H. repeat (destruct H as [<-|H]; [eexists; split; [reflexivity|]; split; [reflexivity|vm_compute; reflexivity]|]). destruct H.
Qed.

(* ------------------------------------------------------------------ *)
(** ** C36: the parameter store is a map *)

Theorem C36_push_pull : forall name t s s',
  push name t s = ROk s' ->
  pull name s' = ROk t /\ has name s' = true /\
  (forall other, other <> name -> pull other s' = pull other s).
Proof.
  intros name t s s'. unfold push. destruct (has name s) eqn:Hh; [discriminate|]. intro H; injection H as <-.
  assert (Hf : forall other, find (fun p => eqb_name (fst p) other) (s ++ [(name, t)])
            = match find (fun p => eqb_name (fst p) other) s with
              | Some x => Some x
              | None => if eqb_name name other then Some (name, t) else None end).
  { intro other. clear. induction s as [|p s IH]; cbn [app find]; [reflexivity|].
    destruct (eqb_name (fst p) other); [reflexivity|exact IH]. }
  assert (Hnone : find (fun p => eqb_name (fst p) name) s = None).
  { destruct (find _ s) as [p|] eqn:E; [|reflexivity]. apply find_some in E.
    assert (has name s = true) by (unfold has; apply existsb_exists; eauto). congruence. }
  split.
  - unfold pull, lookup. rewrite Hf, Hnone, eqb_name_refl. reflexivity.
  - split.
    + unfold has. rewrite existsb_app. cbn [existsb fst]. rewrite eqb_name_refl. apply orb_true_r.
    + intros other Ho. unfold pull, lookup. rewrite Hf.
      destruct (find (fun p => eqb_name (fst p) other) s); [reflexivity|].
      destruct (eqb_name name other) eqn:E; [|reflexivity].
      apply eqb_name_true in E. congruence.
Qed.

Theorem C36_push_duplicate_rejected : forall name t s,
  push name t s = RAbort <-> has name s = true.
Proof. intros name t s. unfold push. destruct (has name s); split; congruence. Qed.

Theorem C36_remove : forall name s,
  has name (remove name s) = false /\
  (forall other, other <> name -> pull other (remove name s) = pull other s).
Proof.
  intros name s. split.
  - unfold has, remove. apply not_true_is_false. intro H. apply existsb_exists in H.
    destruct H as [p [Hin E]]. apply filter_In in Hin. destruct Hin as [_ Hn]. rewrite E in Hn. discriminate.
  - intros other Ho. unfold pull, lookup, remove. f_equal.
    induction s as [|p s IH]; [reflexivity|]. cbn [filter find].
    destruct (eqb_name (fst p) name) eqn:E; cbn [negb].
    + apply eqb_name_true in E. destruct (eqb_name (fst p) other) eqn:E2; [apply eqb_name_true in E2; congruence|]. exact IH.
    + cbn [find]. destruct (eqb_name (fst p) other); [reflexivity|exact IH].
Qed.

(** The iteration order of the underlying hash map does not matter. *)
Theorem C36_order_irrelevant : forall s1 s2 name,
  Permutation s1 s2 -> NoDup (map fst s1) -> pull name s1 = pull name s2.
Proof.
  intros s1 s2 name P N.
  assert (N2 : NoDup (map fst s2)) by (eapply Permutation_NoDup; [apply Permutation_map; exact P | exact N]).
  unfold pull. destruct (in_dec (list_eq_dec Z.eq_dec) name (map fst s1)) as [i|n].
  - apply in_map_iff in i. destruct i as [[m t] [E Hin]]. cbn [fst] in E; subst m.
    rewrite (lookup_in name t s1 N Hin), (lookup_in name t s2 N2); [reflexivity|].
    eapply Permutation_in; eauto.
  - rewrite (lookup_none name s1 n), (lookup_none name s2); [reflexivity|].
    intro K. apply n. eapply Permutation_in; [|exact K]. apply Permutation_map, Permutation_sym, P.
Qed.

Print Assumptions C11_save_load_partial.
Print Assumptions C12_save_load_partial.
Print Assumptions C13_v2_sections.
Print Assumptions C13_v1_sections_partial.
Print Assumptions C34_wrong_magic_rejected.
Print Assumptions C35_block_sizes_partial.
Print Assumptions C36_order_irrelevant.
