(** Lanes of a session: allocation always succeeds while the address space lasts, lanes are distinct and each has its
    own bytes. *)
From Verif Require Import Base DTypeModel ParamModel TensorModel RadixModel ZenModel ZenSpec ZenProofs ZenMore SessModel SessSpec.
Local Open Scope Z_scope.

(** Where lane [a] is. *)
Definition pa (p l : Z) (tok : nat) (basep : Z -> Z) (a : Z) : Z :=
  basep (a / 2 ^ (p + l)) + (a mod 2 ^ (p + l)) * Z.of_nat tok.

Definition ainv (p l : Z) (tok : nat) (basep : Z -> Z) (c : pca) (held : list Z) : Prop :=
  zinv (pc_zen c, held) /\ z_mmap (pc_zen c) = MAnonymous /\ z_p (pc_zen c) = p /\ z_l (pc_zen c) = l /\
  (forall x, tlb_lookup (pc_tlb c) x = if existsb (Z.eqb x) held then Some (pa p l tok basep x) else None) /\
  (Z.of_nat (length (z_blobs (pc_zen c))) - 1) * 2 ^ (p + l) <= Z.of_nat (length held) /\
  (1 <= length (z_blobs (pc_zen c)))%nat.

Lemma page_lane a p l : 0 <= p -> 0 <= l ->
  getPageAddr a p l * 2 ^ l + getLaneAddr a p l = a mod 2 ^ (p + l).
Proof.
  intros Hp Hl. destruct (fields_eq a p l Hp Hl) as (_ & -> & ->).
  assert (0 < 2 ^ l) by (apply Z.pow_pos_nonneg; lia). assert (0 < 2 ^ p) by (apply Z.pow_pos_nonneg; lia).
  rewrite Z.add_comm with (n := p), Z.pow_add_r by lia. rewrite Z.rem_mul_r by lia. ring.
Qed.

Lemma held_blob z held a : zinv (z, held) -> In a held ->
  0 <= a /\ a / lanes z < Z.of_nat (length (z_blobs z)) /\ exists b, In b (z_blobs z) /\ bl_id b = a / lanes z.
Proof.
  intros (W & _ & Hh & _) Ha. destruct (Hh a Ha) as (b & Hb & k & Hk & E). pose proof (ids_in z b W Hb).
  pose proof (lanes_pos z W) as LP.
  assert (E1 : a / lanes z = bl_id b) by (symmetry; apply Z.div_unique with k; [left; lia|rewrite E; ring]).
  split; [nia|]. rewrite E1. split; [lia|eauto].
Qed.

Lemma phys_pa z held p l tok basep a : zinv (z, held) -> z_p z = p -> z_l z = l -> In a held ->
  phys basep z (Z.of_nat tok) a = pa p l tok basep a.
Proof.
  intros HI <- <- Ha. destruct (held_blob z held a HI Ha) as (A0 & _ & b & Hb & Eb).
  destruct HI as (W & _). pose proof W as (H1 & H2 & _).
  unfold phys, zen_access. rewrite page_lane by assumption.
  destruct (fields_eq a (z_p z) (z_l z) H1 H2) as (-> & _). fold (lanes z).
  destruct (find_blob (a / lanes z) (z_blobs z)) as [x|] eqn:E; [reflexivity|].
  unfold find_blob in E. apply (find_none _ _ E) in Hb. lia.
Qed.

(** Lanes do not overlap. *)
Lemma pa_apart p l tok basep a b : 0 <= p -> 0 <= l -> 0 <= a -> 0 <= b -> a <> b ->
  apart basep (2 ^ (p + l) * Z.of_nat tok) ->
  pa p l tok basep a + Z.of_nat tok <= pa p l tok basep b \/ pa p l tok basep b + Z.of_nat tok <= pa p l tok basep a.
Proof.
  intros Hp Hl Ha Hb N AP. unfold pa. set (M := 2 ^ (p + l)) in *.
  assert (HM : 0 < M) by (unfold M; apply Z.pow_pos_nonneg; lia).
  pose proof (Z.mod_pos_bound a M HM) as B1. pose proof (Z.mod_pos_bound b M HM) as B2.
  pose proof (Z.div_mod a M ltac:(lia)) as D1. pose proof (Z.div_mod b M ltac:(lia)) as D2.
  set (t := Z.of_nat tok) in *. assert (0 <= t) by lia.
  destruct (Z.eq_dec (a / M) (b / M)) as [E|E].
  - rewrite E in *. assert (a mod M <> b mod M) by congruence.
    destruct (Z_lt_ge_dec (a mod M) (b mod M)); [left|right]; clear D1 D2 E AP; nia.
  - assert (Q1 : 0 <= a / M) by (apply Z.div_pos; lia). assert (Q2 : 0 <= b / M) by (apply Z.div_pos; lia).
    destruct (AP (a / M) (b / M) Q1 Q2 E) as [X|X]; [left|right].
    + clear D1 D2 E AP. assert (a mod M * t + t <= M * t) by nia. assert (0 <= b mod M * t) by nia. lia.
    + clear D1 D2 E AP. assert (b mod M * t + t <= M * t) by nia. assert (0 <= a mod M * t) by nia. lia.
Qed.

(** If every lane is held, that many are held. *)
Lemma all_held_count z held : zinv (z, held) ->
  (forall b k, In b (z_blobs z) -> 0 <= k < lanes z -> In (bl_id b * lanes z + k) held) ->
  Z.of_nat (length (z_blobs z)) * lanes z <= Z.of_nat (length held).
Proof.
  intros (W & ND & _) All. pose proof (lanes_pos z W) as LP.
  set (n := Z.of_nat (length (z_blobs z)) * lanes z). assert (0 <= n) by nia.
  assert (X : (length (map Z.of_nat (seq 0 (Z.to_nat n))) <= length held)%nat).
  { apply NoDup_incl_length.
    - apply FinFun.Injective_map_NoDup; [intros x y; lia|apply seq_NoDup].
    - intros x Hx. apply in_map_iff in Hx as (i & <- & Hi). apply in_seq in Hi.
      set (x := Z.of_nat i). assert (0 <= x < n) by lia.
      assert (Hq : 0 <= x / lanes z < Z.of_nat (length (z_blobs z))).
      { split; [apply Z.div_pos; lia|apply Z.div_lt_upper_bound; [lia|]]. unfold n in *. lia. }
      destruct W as (_ & _ & _ & Hids & _).
      assert (Hin : In (x / lanes z) (map bl_id (z_blobs z))).
      { rewrite Hids. apply in_map_iff. exists (Z.to_nat (x / lanes z)). split; [lia|]. apply in_seq. lia. }
      apply in_map_iff in Hin as (b & Eb & Hb).
      replace x with (bl_id b * lanes z + x mod lanes z); [apply All; auto; apply Z.mod_pos_bound; lia|].
      rewrite Eb. pose proof (Z.div_mod x (lanes z)). lia. }
  rewrite map_length, seq_length in X. lia.
Qed.

(** The new blob is empty: a walk over all blobs finds a lane in it. *)
Lemma malloc_total z held o1 o2 :
  zinv (z, held) -> z_mmap z = MAnonymous -> (1 <= length (z_blobs z))%nat ->
  (Z.of_nat (length (z_blobs z)) + 1) * lanes z < 2 ^ 32 ->
  (Z.of_nat (length (z_blobs z)) - 1) * lanes z <= Z.of_nat (length held) ->
  (forall b, In b (z_blobs z) -> In (bl_id b) o1) ->
  (forall b, In b (z_blobs (create_blob z)) -> In (bl_id b) o2) ->
  exists z' a, zen_malloc z o1 o2 = (z', Some a) /\
    (Z.of_nat (length (z_blobs z')) - 1) * lanes z <= Z.of_nat (length held).
Proof.
  intros HI Hm H1 Hcap Hc O1 O2. unfold zen_malloc. pose proof (lanes_pos z ltac:(apply HI)) as LP.
  destruct (search z o1) as [z1 r] eqn:Es.
  pose proof (search_spec o1 z held z1 r HI ltac:(nia) Es) as Hs. destruct r as [a|].
  - exists z1, a. split; [reflexivity|]. destruct Hs as (_ & _ & -> & _). exact Hc.
  - destruct Hs as (-> & All). destruct (Nat.leb_spec 1 (length (z_blobs z))) as [_|]; [|lia].
    assert (Full : Z.of_nat (length (z_blobs z)) * lanes z <= Z.of_nat (length held)).
    { apply all_held_count; auto. }
    assert (HIc : zinv (create_blob z, held)) by (apply create_inv; auto).
    assert (Elen : length (z_blobs (create_blob z)) = S (length (z_blobs z))).
    { unfold create_blob; cbn [z_blobs]. rewrite app_length. simpl. lia. }
    destruct (search (create_blob z) o2) as [z2 r] eqn:Es2.
    pose proof (search_spec o2 (create_blob z) held z2 r HIc) as Hs2. rewrite Elen in Hs2.
    change (lanes (create_blob z)) with (lanes z) in Hs2. specialize (Hs2 ltac:(nia) Es2).
    destruct r as [a|].
    + exists z2, a. split; [reflexivity|]. destruct Hs2 as (_ & _ & -> & _). lia.
    + exfalso. destruct Hs2 as (_ & All2).
      set (nb := new_blob (z_mmap z) (Z.of_nat (length (z_blobs z))) (z_p z) (z_l z)).
      assert (Hnb : In nb (z_blobs (create_blob z))) by (unfold create_blob; cbn [z_blobs]; apply in_or_app; right; left; reflexivity).
      assert (X : In (bl_id nb * lanes z + 0) held) by (apply All2; auto; lia).
      destruct (held_blob z held _ HI X) as (_ & B & _). cbn [bl_id new_blob nb] in B.
      rewrite Z.add_0_r, Z.div_mul in B by lia. lia.
Qed.

Section Lanes.
Variables (p l : Z) (tok : nat) (basep : Z -> Z) (order : nat -> zenfs -> list Z).
Hypothesis Hord : walks_all order.
Notation ainv := (ainv p l tok basep).
Notation pa := (pa p l tok basep).

Lemma alloc_ok c held : ainv (c_alloc c) held -> Z.of_nat (length held) + 2 * 2 ^ (p + l) < 2 ^ 32 ->
  exists a x, alloc tok basep order c = ROk (mkCache (c_tree c) a (c_mem c) (S (S (c_walks c))), x) /\
    ~ In x held /\ ainv a (held ++ [x]).
Proof.
  intros (HI & Hm & Ep & El & HT & Hc & H1) Hcap. set (z := pc_zen (c_alloc c)) in *.
  assert (EL : lanes z = 2 ^ (p + l)) by (unfold lanes; rewrite Ep, El; reflexivity).
  assert (Cap : (Z.of_nat (length (z_blobs z)) + 1) * lanes z < 2 ^ 32) by (rewrite EL; lia).
  destruct (malloc_total z held (order (c_walks c) z) (order (S (c_walks c)) (create_blob z)) HI Hm H1 Cap) as (z' & x & E & C').
  - rewrite EL. exact Hc.
  - intros b Hb. eapply Permutation_in; [apply Permutation_sym, Hord|]. apply in_map, Hb.
  - intros b Hb. eapply Permutation_in; [apply Permutation_sym, Hord|]. apply in_map, Hb.
  - destruct (malloc_spec z held _ _ z' x HI Hm Cap E) as (Hn & HI' & El' & Ep' & Ell & Em' & Hlen).
    unfold alloc, pca_alloc. fold z. rewrite E. do 2 eexists. split; [reflexivity|]. split; [exact Hn|].
    unfold SessAlloc.ainv. cbn [pc_zen pc_tlb]. split; [exact HI'|]. split; [exact Em'|]. split; [congruence|]. split; [congruence|].
    split; [|split].
    + intro y. rewrite tlb_lookup_insert, HT, existsb_app. cbn [existsb]. rewrite orb_false_r.
      destruct (existsb (Z.eqb y) held) eqn:Ey; [reflexivity|]. cbn [orb].
      destruct (Z.eqb_spec x y) as [->|Ne].
      * rewrite Z.eqb_refl. f_equal. apply (phys_pa z' (held ++ [y])); auto; try congruence. apply in_or_app; right; left; reflexivity.
      * destruct (Z.eqb_spec y x); [congruence|reflexivity].
    + rewrite app_length. rewrite EL in C'. cbn [length]. lia.
    + lia.
Qed.

Lemma alloc_rows_ok : forall n c held, ainv (c_alloc c) held -> Z.of_nat (length held) + 2 * Z.of_nat n + 2 * 2 ^ (p + l) < 2 ^ 32 + 1 ->
  exists c' ka va held', alloc_rows tok basep order n c = ROk (c', ka, va) /\
    c_tree c' = c_tree c /\ c_mem c' = c_mem c /\ ainv (c_alloc c') held' /\
    length ka = n /\ length va = n /\ NoDup (ka ++ va) /\
    (forall x, In x held' <-> In x held \/ In x (ka ++ va)) /\ (forall x, In x (ka ++ va) -> ~ In x held) /\
    length held' = (length held + 2 * n)%nat.
Proof.
  induction n as [|n IH]; intros c held HA Hcap.
  - exists c, [], [], held. cbn [alloc_rows app length].
    split; [reflexivity|]. split; [reflexivity|]. split; [reflexivity|]. split; [exact HA|].
    split; [reflexivity|]. split; [reflexivity|]. split; [constructor|]. split; [|split; [intros x []|lia]].
    intro x. split; [auto|intros [X|[]]; exact X].
  - destruct (alloc_ok c held HA) as (a1 & k & E1 & N1 & A1); [lia|].
    set (c1 := mkCache (c_tree c) a1 (c_mem c) (S (S (c_walks c)))) in *.
    destruct (alloc_ok c1 (held ++ [k])) as (a2 & v & E2 & N2 & A2); [exact A1|rewrite app_length; cbn [length]; lia|].
    set (c2 := mkCache (c_tree c1) a2 (c_mem c1) (S (S (c_walks c1)))) in *.
    destruct (IH c2 ((held ++ [k]) ++ [v])) as (c3 & ka & va & held' & E3 & T3 & M3 & A3 & L1 & L2 & ND & IN & FR & LH);
      [exact A2|rewrite !app_length; cbn [length]; lia|].
    exists c3, (k :: ka), (v :: va), held'.
    split; [cbn [alloc_rows]; rewrite E1; cbn [rbind]; rewrite E2; cbn [rbind]; rewrite E3; reflexivity|].
    split; [exact T3|]. split; [exact M3|]. split; [exact A3|]. split; [cbn [length]; lia|]. split; [cbn [length]; lia|].
    assert (P : Permutation ((k :: ka) ++ v :: va) (k :: v :: ka ++ va)).
    { cbn [app]. apply perm_skip. symmetry. apply Permutation_middle. }
    split; [|split; [|split]].
    + eapply Permutation_NoDup; [symmetry; exact P|]. constructor.
      * intros [X|X]; [subst v; apply N2, in_or_app; right; left; reflexivity|]. apply (FR k X).
        apply in_or_app; left. apply in_or_app; right; left; reflexivity.
      * constructor; [|exact ND]. intro X. apply (FR v X), in_or_app. right; left; reflexivity.
    + intro x. rewrite IN. split.
      * intros [X|X]; [apply in_app_or in X as [X|[<-|[]]]; [apply in_app_or in X as [X|[<-|[]]]|]|]; auto; right;
          eapply Permutation_in; try (symmetry; exact P); cbn [In]; auto.
      * intros [X|X]; [left; apply in_or_app; left; apply in_or_app; left; exact X|].
        eapply Permutation_in in X; [|exact P]. destruct X as [<-|[<-|X]]; auto; left.
        -- apply in_or_app; left. apply in_or_app; right; left; reflexivity.
        -- apply in_or_app; right; left; reflexivity.
    + intros x X. eapply Permutation_in in X; [|exact P]. destruct X as [<-|[<-|X]]; [exact N1| |].
      * intro Y. apply N2, in_or_app. left; exact Y.
      * intro Y. apply (FR x X), in_or_app. left. apply in_or_app; left; exact Y.
    + rewrite LH, !app_length. cbn [length]. lia.
Qed.

Lemma pointers_ok c held as_ : ainv (c_alloc c) held -> (forall a, In a as_ -> In a held) ->
  pointers c as_ = ROk (map pa as_).
Proof.
  intros (_ & _ & _ & _ & HT & _). induction as_ as [|a r IH]; intro Hin; [reflexivity|]. cbn [pointers map].
  unfold pca_physical. rewrite HT. assert (E : existsb (Z.eqb a) held = true) by (apply existsb_in, Hin; left; reflexivity).
  rewrite E, IH; [reflexivity|]. intros x Hx. apply Hin. right; exact Hx.
Qed.
End Lanes.

(** ** Bytes *)
Lemma read_len m q n : length (read_bytes m q n) = n.
Proof. unfold read_bytes. rewrite map_length. apply seq_length. Qed.

Lemma read_write_same m q bs : read_bytes (write_bytes m q bs) q (length bs) = bs.
Proof.
  unfold read_bytes, write_bytes, zlen. apply nth_ext with 0 0; [rewrite map_length; apply seq_length|].
  intros i Hi. rewrite map_length, seq_length in Hi.
  set (f := fun i => _). rewrite nth_indep with (d' := f 0%nat) by (rewrite map_length, seq_length; exact Hi).
  rewrite map_nth, seq_nth by exact Hi. unfold f. cbn [Nat.add].
  destruct (Z.leb_spec q (q + Z.of_nat i)); [|lia]. destruct (Z.ltb_spec (q + Z.of_nat i) (q + Z.of_nat (length bs))); [|lia].
  cbn [andb]. f_equal. lia.
Qed.

Lemma read_write_other m q bs r n : q + Z.of_nat (length bs) <= r \/ r + Z.of_nat n <= q ->
  read_bytes (write_bytes m q bs) r n = read_bytes m r n.
Proof.
  intro D. unfold read_bytes, write_bytes, zlen. apply map_ext_in. intros i Hi. apply in_seq in Hi.
  destruct (Z.leb_spec q (r + Z.of_nat i)); [|reflexivity]. destruct (Z.ltb_spec (r + Z.of_nat i) (q + Z.of_nat (length bs))); [lia|reflexivity].
Qed.

(** Scattering rows to separate places. *)
Lemma flat_rows {X} (f : X -> list Z) w : forall l i d, (forall x, length (f x) = w) -> (i < length l)%nat ->
  firstn w (skipn (i * w) (flat_map f l)) = f (nth i l d).
Proof.
  induction l as [|x l IH]; intros i d Hw Hi; [cbn in Hi; lia|]. cbn [flat_map]. destruct i as [|i].
  - cbn [Nat.mul skipn nth]. rewrite firstn_app, Hw, Nat.sub_diag, firstn_O, app_nil_r. apply firstn_all2. rewrite Hw. lia.
  - cbn [nth]. replace (S i * w)%nat with (w + i * w)%nat by lia. rewrite skipn_app, Hw.
    rewrite skipn_all2 by (rewrite Hw; lia). cbn [app]. replace (w + i * w - w)%nat with (i * w)%nat by lia.
    apply IH; auto. cbn [length] in Hi. lia.
Qed.

Definition sep (w : nat) (a b : Z) : Prop := a + Z.of_nat w <= b \/ b + Z.of_nat w <= a.

Lemma scatter_spec {X} (f : X -> list Z) w (l : list X) dst m :
  (forall x, length (f x) = w) -> length dst = length l ->
  (forall i j, (i < length dst)%nat -> (j < length dst)%nat -> i <> j -> sep w (nth i dst 0) (nth j dst 0)) ->
  let m' := scatter w (flat_map f l) dst m in
  (forall i d, (i < length dst)%nat -> read_bytes m' (nth i dst 0) w = f (nth i l d)) /\
  (forall r, (forall i, (i < length dst)%nat -> sep w (nth i dst 0) r) -> read_bytes m' r w = read_bytes m r w).
Proof.
  intros Hw Hl Hs. unfold scatter.
  assert (G : forall n, (n <= length dst)%nat ->
    let m' := fold_left (fun m lo => write_bytes m (nth lo dst 0) (firstn w (skipn (lo * w) (flat_map f l)))) (seq 0 n) m in
    (forall i d, (i < n)%nat -> read_bytes m' (nth i dst 0) w = f (nth i l d)) /\
    (forall r, (forall i, (i < length dst)%nat -> sep w (nth i dst 0) r) -> read_bytes m' r w = read_bytes m r w)).
  { induction n as [|n IH]; intro Hn; [cbn [seq fold_left]; split; [intros; lia|reflexivity]|].
    rewrite seq_S, fold_left_app. cbn [Nat.add fold_left]. cbv zeta. specialize (IH ltac:(lia)). cbv zeta in IH.
    set (m1 := fold_left _ (seq 0 n) m) in *. destruct IH as (I1 & I2).
    split.
    - intros i d Hi. rewrite (flat_rows f w l n d Hw) by lia. destruct (Nat.eq_dec i n) as [->|Ne].
      + rewrite <- (Hw (nth n l d)) at 1. apply read_write_same.
      + rewrite read_write_other; [apply I1; lia|]. rewrite Hw. destruct (Hs n i) as [S1|S1]; lia.
    - intros r Hr. destruct l as [|x0 l0]; [cbn [length] in *; lia|]. rewrite (flat_rows f w (x0 :: l0) n x0 Hw) by lia.
      rewrite read_write_other; [apply I2, Hr|]. rewrite Hw. destruct (Hr n) as [S1|S1]; lia. }
  apply G. lia.
Qed.
