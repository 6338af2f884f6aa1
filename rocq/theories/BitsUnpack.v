(** unpack_weights reads back what pack_weights wrote. *)
From Verif Require Import Base BitsModel BitsSpec BitsProofs BitsDispatch BitsWidth BitsValues BitsWeights.
Open Scope Z_scope.

Inductive field := Fq | Fs | Fz | Fb.
Definition get (o : unpacked) (f : field) : Z -> Z :=
  match f with Fq => u_qvals o | Fs => u_scales o | Fz => u_zeros o | Fb => u_bias o end.

Section Fields.
  (** What the arrays should hold. *)
  Variable target : field -> Z -> Z.
  Definition ofills (o o' : unpacked) (S : field -> Z -> Prop) : Prop :=
    forall f, fills (get o f) (get o' f) (S f) (target f).
  Definition reads (len : Z) (h : unpacked * Z -> unpacked * Z) (p : Z) (S : field -> Z -> Prop) : Prop :=
    forall o, exists o', h (o, p) = (o', p + len) /\ ofills o o' S.

  Lemma reads_iff : forall len len' h p (S T : field -> Z -> Prop), reads len h p S -> len = len' ->
    (forall f x, S f x <-> T f x) -> reads len' h p T.
  Proof.
    intros len len' h p S T H <- E o. destruct (H o) as (o' & A & B). exists o'. split; [exact A|].
    intros f. eapply fills_iff; [apply B|apply E].
  Qed.
  Lemma reads_for : forall n len h p (S : Z -> field -> Z -> Prop), 0 <= n ->
    (forall i, 0 <= i < n -> reads len (h i) (p + i * len) (S i)) ->
    reads (n * len) (zfor n h) p (fun f x => exists i, 0 <= i < n /\ S i f x).
  Proof.
    intros n len h p S Hn H o.
    apply (zfor_inv _ (fun i st => exists o', st = (o', p + i * len) /\
      ofills o o' (fun f x => exists i', 0 <= i' < i /\ S i' f x))); [exact Hn| |].
    - exists o. split; [f_equal; lia|]. intros f. apply fills_none. intros x (i & Hi & _). lia.
    - intros j st Hj (o1 & -> & F). destruct (H j Hj o1) as (o2 & E & G).
      exists o2. split; [etransitivity; [exact E|f_equal; lia]|]. intros f.
      eapply fills_more; [apply F|apply G|]. intros x. split.
      + intros (i & Hi & Hx). destruct (Z.eq_dec i j) as [->|]; [right; exact Hx|].
        left. exists i. split; [lia|exact Hx].
      + intros [(i & Hi & Hx)|Hx]; [exists i|exists j]; (split; [lia|exact Hx]).
  Qed.
End Fields.

(** A row of words. *)
Lemma words_read : forall nr n n_idx m (idx : Z -> Z) (conv : Z -> Z) v a p, 0 <= nr ->
  (forall j, 0 <= j < nr -> n_idx + j < n -> conv (load32 m (p + j * 4)) = v (idx j)) ->
  exists a', zfor nr (fun j (sp : (Z -> Z) * Z) => let (s, q) := sp in
      (if n_idx + j <? n then assign s (idx j) (conv (load32 m q)) else s, q + 4)) (a, p)
    = (a', p + nr * 4) /\
  fills a a' (fun x => exists j, 0 <= j < nr /\ n_idx + j < n /\ x = idx j) v.
Proof.
  intros nr n n_idx m idx conv v a p Hn H.
  apply (zfor_inv _ (fun i st => exists a', st = (a', p + i * 4) /\
    fills a a' (fun x => exists j, 0 <= j < i /\ n_idx + j < n /\ x = idx j) v)); [exact Hn| |].
  - exists a. split; [f_equal; lia|]. apply fills_none. intros x (j & Hj & _). lia.
  - intros i st Hi (a1 & -> & F). destruct (n_idx + i <? n) eqn:E.
    + eexists. split; [f_equal; lia|]. eapply fills_more; [exact F|apply fills_assign|].
      * apply H; lia.
      * intros x. split.
        -- intros (j & A & B & C). destruct (Z.eq_dec j i) as [->|]; [right; exact C|].
           left. exists j. split; [lia|split; assumption].
        -- intros [(j & A & B & C)|C]; [exists j|exists i]; (split; [lia|split; [lia|exact C]]).
    + exists a1. split; [f_equal; lia|]. eapply fills_iff; [exact F|].
      intros x. split; intros (j & A & B & C); exists j; (split; [lia|split; [lia|exact C]]).
Qed.

Section Weights.
  Variables nbit nr kr sr : Z.
  Variables n k group_size : Z.
  Hypothesis (Nr : 0 < nr) (Kr : 0 < kr).
  Hypothesis (Gs : 0 < group_size) (Gk : k mod group_size = 0) (Gr : group_size mod kr = 0) (K : 0 < k).
  Variables (weights scales : Z -> Z) (zeros bias : option (Z -> Z)).
  Variable m : mem.

  Let gpk := k / group_size.
  Let chunk := nbit * nr * kr / 8.
  Definition target (f : field) : Z -> Z :=
    match f with
    | Fq => weights | Fs => scales
    | Fz => match zeros with Some z => z | None => fun _ => 0 end
    | Fb => match bias with Some b => b | None => fun _ => 0 end
    end.

  Definition chunk_set (n_idx pos : Z) (f : field) (x : Z) : Prop :=
    match f with
    | Fq => exists j t, 0 <= j < nr /\ n_idx + j < n /\ 0 <= t < kr /\ x = (n_idx + j) * k + pos + t
    | _ => False
    end.

  Lemma chunk_read : forall n_idx k_idx i p,
    chunk_ok nbit nr kr sr n k weights n_idx (k_idx + i) m p ->
    reads target chunk (unpack_chunk nbit nr kr sr n k m n_idx (n_idx * k) k_idx i) p
      (chunk_set n_idx (k_idx + i)).
  Proof using Nr Kr.
    intros n_idx k_idx i p H o. unfold unpack_chunk. fold chunk.
    eexists. split; [reflexivity|]. intros []; cbn [get chunk_set u_qvals u_scales u_zeros u_bias].
    2-4: apply fills_none; intros x [].
    set (buf := unpack_values _ _ _ _ _).
    eapply fills_iff; [apply fills_zfor with (S := fun j x => n_idx + j < n /\
      exists t, 0 <= t < kr /\ x = (n_idx + j) * k + (k_idx + i) + t)|].
    - clear - Nr. lia.
    - intros j b Hj. destruct (n_idx + j <? n) eqn:E.
      + eapply fills_iff; [apply fills_copy|].
        * intros t Ht. unfold buf. rewrite (H j t Hj Ht). unfold weight_at. rewrite E.
          cbn [target]. f_equal. clear. ring.
        * intros x. split.
          -- intros Hx. split; [clear - E; lia|].
             exists (x - (n_idx * k + (j * k + (k_idx + i)))). split; [clear - Hx; lia|clear; ring].
          -- intros (_ & t & Ht & ->). clear - Ht. lia.
      + apply fills_none. intros x (A & _). clear - A E. lia.
    - intros x. split.
      + intros (j & Hj & A & t & Ht & ->). exists j, t. repeat (split; [assumption|]). reflexivity.
      + intros (j & t & Hj & A & Ht & ->). exists j. split; [exact Hj|]. split; [exact A|].
        exists t. split; [exact Ht|reflexivity].
  Qed.

  Let zlen := if given zeros then nr * 4 else 0.
  Let blen := if given bias then nr * 4 else 0.
  Let group := group_size / kr * chunk + (nr * 4 + (nr * 4 + zlen)).
  Let tile := gpk * group + blen.

  Hypothesis (Zeros : forall z, zeros = Some z -> forall i, 0 <= i < n * gpk -> fits 8 (z i)).

  Definition group_set (n_idx g : Z) (f : field) (x : Z) : Prop :=
    match f with
    | Fq => exists j t, 0 <= j < nr /\ n_idx + j < n /\ 0 <= t < group_size /\
              x = (n_idx + j) * k + g * group_size + t
    | Fs => exists j, 0 <= j < nr /\ n_idx + j < n /\ x = (n_idx + j) * gpk + g
    | Fz => given zeros = true /\ exists j, 0 <= j < nr /\ n_idx + j < n /\ x = (n_idx + j) * gpk + g
    | Fb => False
    end.

  Lemma gs_split : group_size = kr * (group_size / kr).
  Proof using Gr Kr.
    clear Zeros Gk. assert (E := Z.div_mod group_size kr). rewrite Gr in E. clear - E Kr. lia.
  Qed.
  Lemma k_split : k = group_size * gpk.
  Proof using Gk Gs.
    unfold gpk. clear Zeros. assert (E := Z.div_mod k group_size). rewrite Gk in E. clear - E Gs. lia.
  Qed.

  Lemma group_read : forall n_idx g p, 0 <= n_idx -> 0 <= g < gpk ->
    group_ok nbit nr kr sr n k group_size weights scales zeros n_idx g m p ->
    reads target group
      (unpack_group nbit nr kr sr n k group_size m n_idx (n_idx * k) (n_idx * gpk) (n_idx * gpk)
         (given zeros) g) p (group_set n_idx g).
  Proof.
    intros n_idx g p H1 H2 (C & SC & _ & ZE) o. fold chunk in C, SC, ZE.
    assert (EG := gs_split). assert (EK := k_split).
    set (rs := group_size / kr) in *.
    assert (RS : 0 <= rs) by (apply Z.div_pos; [clear - Gs; lia|exact Kr]).
    assert (CH : reads target (rs * chunk)
      (zfor rs (fun c st => unpack_chunk nbit nr kr sr n k m n_idx (n_idx * k) (g * group_size) (c * kr) st)) p
      (fun f x => exists c, 0 <= c < rs /\ chunk_set n_idx (g * group_size + c * kr) f x)).
    { apply reads_for with (S := fun c => chunk_set n_idx (g * group_size + c * kr)); [exact RS|].
      intros c Hc. apply chunk_read. apply C. exact Hc. }
    destruct (CH o) as (o1 & E1 & F1).
    unfold unpack_group. fold gpk. cbv zeta.
    rewrite rounds_exact by (first [exact Kr | exact Gr | clear - Gs; lia]). fold rs.
    match goal with |- context [zfor rs ?h ?s] => assert (EX : zfor rs h s = (o1, p + rs * chunk)) by exact E1;
      rewrite EX end.
    assert (N0 : 0 <= nr) by (clear - Nr; lia).
    destruct (words_read nr n n_idx m (fun j => n_idx * gpk + (j * gpk + g)) (fun w => w) scales
      (u_scales o1) (p + rs * chunk) N0) as (s1 & E2 & F2).
    { intros j Hj Hn. rewrite SC by exact Hj. unfold scale_at.
      replace (n_idx + j <? n) with true by (symmetry; clear - Hn; lia). fold gpk. f_equal. ring. }
    cbv beta in E2. rewrite E2. unfold group.
    assert (Q : forall x, (exists c, 0 <= c < rs /\ chunk_set n_idx (g * group_size + c * kr) Fq x)
      <-> group_set n_idx g Fq x).
    { intros x. cbn [chunk_set group_set]. split.
      - intros (c & Hc & j & t & A & B & D & ->). exists j, (c * kr + t).
        split; [exact A|split; [exact B|split]]; [|ring].
        rewrite EG. revert Hc D. generalize rs. clear. intros. nia.
      - intros (j & t & A & B & D & ->). exists (t / kr). split.
        + split; [apply Z.div_pos; [clear - D; lia|exact Kr]|].
          apply Z.div_lt_upper_bound; [exact Kr|]. rewrite <- EG. clear - D. lia.
        + exists j, (t mod kr). split; [exact A|split; [exact B|split]].
          * apply Z.mod_pos_bound. exact Kr.
          * assert (E := Z.div_mod t kr). clear - E Kr. lia. }
    assert (SS : forall x, (exists j, 0 <= j < nr /\ n_idx + j < n /\ x = n_idx * gpk + (j * gpk + g))
      <-> (exists j, 0 <= j < nr /\ n_idx + j < n /\ x = (n_idx + j) * gpk + g)).
    { intros x. split; intros (j & A & B & ->); exists j; (split; [exact A|split; [exact B|ring]]). }
    destruct zeros as [z|] eqn:EZ; cbn [given] in *.
    - destruct (words_read nr n n_idx m (fun j => n_idx * gpk + (j * gpk + g)) (fun w => s8 (signed32 w)) z
        (u_zeros o1) (p + rs * chunk + nr * 4 + nr * 4) N0) as (z1 & E3 & F3).
      { intros j Hj Hn. rewrite (ZE z eq_refl) by exact Hj. unfold zero_at.
        replace (n_idx + j <? n) with true by (symmetry; clear - Hn; lia). fold gpk.
        assert (FZ : fits 8 (z ((n_idx + j) * gpk + g))).
        { apply (Zeros z eq_refl). revert H2. generalize gpk. clear - H1 Hj Hn. intros. nia. }
        rewrite signed_pattern.
        - rewrite s8_fits by exact FZ. f_equal. ring.
        - revert FZ. unfold fits. change (2 ^ (8 - 1)) with 128. change (2 ^ 31) with 2147483648.
          generalize (z ((n_idx + j) * gpk + g)). clear. intros. lia. }
      cbv beta in E3. rewrite E3.
      eexists. split; [f_equal; unfold zlen; ring|].
      intros []; cbn [get u_qvals u_scales u_zeros u_bias].
      + eapply fills_iff; [apply (F1 Fq)|exact Q].
      + eapply fills_more; [apply (F1 Fs)|exact F2|]. intros x. cbn [group_set chunk_set]. rewrite <- SS.
        split; [intros G; right; exact G|]. intros [(c & _ & [])|G]; exact G.
      + eapply fills_more; [apply (F1 Fz)|cbn [target]; rewrite EZ; exact F3|]. intros x. cbn [group_set chunk_set]. rewrite EZ. cbn [given]. rewrite <- SS.
        split; [intros (_ & G); right; exact G|]. intros [(c & _ & [])|G]; (split; [reflexivity|exact G]).
      + eapply fills_iff; [apply (F1 Fb)|]. intros x. cbn [group_set chunk_set].
        split; [intros (c & _ & [])|intros []].
    - eexists. split; [f_equal; unfold zlen; ring|].
      intros []; cbn [get u_qvals u_scales u_zeros u_bias].
      + eapply fills_iff; [apply (F1 Fq)|exact Q].
      + eapply fills_more; [apply (F1 Fs)|exact F2|]. intros x. cbn [group_set chunk_set]. rewrite <- SS.
        split; [intros G; right; exact G|]. intros [(c & _ & [])|G]; exact G.
      + eapply fills_iff; [apply (F1 Fz)|]. intros x. cbn [group_set chunk_set]. rewrite EZ. cbn [given].
        split; [intros (c & _ & [])|intros ([=] & _)].
      + eapply fills_iff; [apply (F1 Fb)|]. intros x. cbn [group_set chunk_set].
        split; [intros (c & _ & [])|intros []].
  Qed.

  Definition tile_set (n_idx : Z) (f : field) (x : Z) : Prop :=
    match f with
    | Fq => exists j t, 0 <= j < nr /\ n_idx + j < n /\ 0 <= t < k /\ x = (n_idx + j) * k + t
    | Fs => exists j g, 0 <= j < nr /\ n_idx + j < n /\ 0 <= g < gpk /\ x = (n_idx + j) * gpk + g
    | Fz => given zeros = true /\
            exists j g, 0 <= j < nr /\ n_idx + j < n /\ 0 <= g < gpk /\ x = (n_idx + j) * gpk + g
    | Fb => given bias = true /\ exists j, 0 <= j < nr /\ n_idx + j < n /\ x = n_idx + j
    end.

  Lemma tile_read : forall n_idx p, 0 <= n_idx ->
    tile_ok nbit nr kr sr n k group_size weights scales zeros bias n_idx m p ->
    p = p -> forall packed o,
    packed + n_idx * packed_weights_size_per_n k group_size nbit (given zeros) (given bias) = p ->
    ofills target o
      (unpack_weights_at_n_idx nbit nr kr sr n k group_size m packed n_idx (n_idx * k) (n_idx * gpk)
         (n_idx * gpk) n_idx (given zeros) (given bias) o) (tile_set n_idx).
  Proof.
    intros n_idx p H1 (G & B) _ packed o EP. fold gpk chunk in G, B. fold zlen in G, B.
    fold group in G, B. unfold unpack_weights_at_n_idx. cbv zeta. rewrite EP. fold gpk.
    assert (EK := k_split).
    assert (GP : 0 <= gpk) by (unfold gpk; apply Z.div_pos; [clear - K; lia|exact Gs]).
    assert (R : reads target (gpk * group)
      (zfor gpk (fun g st => unpack_group nbit nr kr sr n k group_size m n_idx (n_idx * k) (n_idx * gpk)
         (n_idx * gpk) (given zeros) g st)) p (fun f x => exists g, 0 <= g < gpk /\ group_set n_idx g f x)).
    { apply reads_for with (S := fun g => group_set n_idx g); [exact GP|].
      intros g Hg. apply group_read; [exact H1|exact Hg|]. apply G. exact Hg. }
    destruct (R o) as (o1 & E1 & F1).
    match goal with |- context [zfor gpk ?h ?s] => assert (EX : zfor gpk h s = (o1, p + gpk * group)) by exact E1;
      rewrite EX end.
    assert (Q : forall x, (exists g, 0 <= g < gpk /\ group_set n_idx g Fq x) <-> tile_set n_idx Fq x).
    { intros x. cbn [group_set tile_set]. split.
      - intros (g & Hg & j & t & A & C & D & ->). exists j, (g * group_size + t).
        split; [exact A|split; [exact C|split]]; [|ring].
        rewrite EK. revert Hg D. generalize gpk. clear. intros. nia.
      - intros (j & t & A & C & D & ->). exists (t / group_size). split.
        + split; [apply Z.div_pos; [clear - D; lia|exact Gs]|].
          apply Z.div_lt_upper_bound; [exact Gs|]. rewrite <- EK. clear - D. lia.
        + exists j, (t mod group_size). split; [exact A|split; [exact C|split]].
          * apply Z.mod_pos_bound. exact Gs.
          * assert (E := Z.div_mod t group_size). clear - E Gs. lia. }
    assert (SS : forall x, (exists g, 0 <= g < gpk /\ group_set n_idx g Fs x) <-> tile_set n_idx Fs x).
    { intros x. cbn [group_set tile_set]. split.
      - intros (g & Hg & j & A & C & ->). exists j, g. repeat (split; [assumption|]). reflexivity.
      - intros (j & g & A & C & D & ->). exists g. split; [exact D|]. exists j.
        repeat (split; [assumption|]). reflexivity. }
    assert (ZZ : forall x, (exists g, 0 <= g < gpk /\ group_set n_idx g Fz x) <-> tile_set n_idx Fz x).
    { intros x. cbn [group_set tile_set]. split.
      - intros (g & Hg & V & j & A & C & ->). split; [exact V|]. exists j, g.
        repeat (split; [assumption|]). reflexivity.
      - intros (V & j & g & A & C & D & ->). exists g. split; [exact D|]. split; [exact V|]. exists j.
        repeat (split; [assumption|]). reflexivity. }
    assert (N0 : 0 <= nr) by (clear - Nr; lia).
    destruct bias as [b|] eqn:EB; cbn [given].
    - destruct (words_read nr n n_idx m (fun j => n_idx + j) (fun w => w) b
        (u_bias o1) (p + gpk * group) N0) as (b1 & E2 & F2).
      { intros j Hj Hn. rewrite (B b eq_refl) by exact Hj. unfold bias_at.
        replace (n_idx + j <? n) with true by (symmetry; clear - Hn; lia). reflexivity. }
      cbv beta in E2. rewrite E2.
      intros []; cbn [get u_qvals u_scales u_zeros u_bias].
      + eapply fills_iff; [apply (F1 Fq)|exact Q].
      + eapply fills_iff; [apply (F1 Fs)|exact SS].
      + eapply fills_iff; [apply (F1 Fz)|exact ZZ].
      + eapply fills_more; [apply (F1 Fb)| |].
        * cbn [target]. rewrite EB. exact F2.
        * intros x. cbn [tile_set group_set]. rewrite EB. cbn [given].
          split; [intros (_ & X); right; exact X|].
          intros [(g & _ & [])|X]; (split; [reflexivity|exact X]).
    - intros [].
      + eapply fills_iff; [apply (F1 Fq)|exact Q].
      + eapply fills_iff; [apply (F1 Fs)|exact SS].
      + eapply fills_iff; [apply (F1 Fz)|exact ZZ].
      + eapply fills_iff; [apply (F1 Fb)|]. intros x. cbn [tile_set group_set]. rewrite EB. cbn [given].
        split; [intros (g & _ & [])|intros ([=] & _)].
  Qed.

  Definition whole_set (f : field) (x : Z) : Prop :=
    match f with
    | Fq => 0 <= x < n * k
    | Fs => 0 <= x < n * gpk
    | Fz => given zeros = true /\ 0 <= x < n * gpk
    | Fb => given bias = true /\ 0 <= x < n
    end.

  Lemma split_index : forall w x, 0 < w -> 0 <= x < n * w <->
    exists t, 0 <= t < rounds n nr /\ exists j c, 0 <= j < nr /\ t * nr + j < n /\ 0 <= c < w /\
      x = (t * nr + j) * w + c.
  Proof.
    intros w x Hw. split.
    - intros Hx. assert (E := Z.div_mod x w ltac:(clear - Hw; lia)).
      assert (M := Z.mod_pos_bound x w Hw).
      assert (Y : 0 <= x / w < n).
      { split; [apply Z.div_pos; [clear - Hx; lia|exact Hw]|].
        apply Z.div_lt_upper_bound; [exact Hw|]. clear - Hx. lia. }
      revert E M Y. generalize (x / w) (x mod w). intros y c E M Y.
      assert (E' := Z.div_mod y nr ltac:(clear - Nr; lia)).
      assert (M' := Z.mod_pos_bound y nr Nr).
      exists (y / nr). split.
      + split; [apply Z.div_pos; [clear - Y; lia|exact Nr]|].
        unfold rounds. apply Z.div_lt_upper_bound; [exact Nr|].
        assert (D := Z.div_mod (n + nr - 1) nr ltac:(clear - Nr; lia)).
        assert (D' := Z.mod_pos_bound (n + nr - 1) nr Nr). clear - D D' Y. lia.
      + exists (y mod nr), c. split; [exact M'|]. rewrite (Z.mul_comm (y / nr)), <- E'.
        split; [clear - Y; lia|]. split; [exact M|]. clear - E. lia.
    - intros (t & Ht & j & c & Hj & Hn & Hc & ->).
      assert (0 <= t * nr + j) by (clear - Ht Hj; nia).
      revert H Hn. generalize (t * nr + j). clear - Hc Hw. intros. nia.
  Qed.

  Hypothesis (Size : tile = nr * packed_weights_size_per_n k group_size nbit (given zeros) (given bias)).

  Theorem weights_read : forall packed o, 0 <= n ->
    (forall t, 0 <= t < rounds n nr ->
       tile_ok nbit nr kr sr n k group_size weights scales zeros bias (t * nr) m (packed + t * tile)) ->
    ofills target o
      (unpack_weights nbit nr kr sr n k group_size m packed (given zeros) (given bias) o) whole_set.
  Proof.
    intros packed o N H. unfold unpack_weights. fold gpk. cbv zeta.
    assert (EK := k_split).
    assert (GP : 0 < gpk).
    { revert EK. generalize gpk. clear - K Gs. intros. nia. }
    assert (R : ofills target o (zfor (rounds n nr) (fun t out =>
      unpack_weights_at_n_idx nbit nr kr sr n k group_size m packed (t * nr) (t * nr * k) (t * nr * gpk)
        (t * nr * gpk) (t * nr) (given zeros) (given bias) out) o)
      (fun f x => exists t, 0 <= t < rounds n nr /\ tile_set (t * nr) f x)).
    { apply (zfor_inv _ (fun i out => ofills target o out
        (fun f x => exists t, 0 <= t < i /\ tile_set (t * nr) f x))).
      - unfold rounds. apply Z.div_pos; [clear - Nr N; lia|exact Nr].
      - intros f. apply fills_none. intros x (i & Hi & _). clear - Hi. lia.
      - intros t o1 Ht F f. eapply fills_more; [apply F|apply tile_read with (p := packed + t * tile)|].
        + clear - Ht Nr. nia.
        + apply H. exact Ht.
        + reflexivity.
        + rewrite Size. ring.
        + intros x. split.
          * intros (i & Hi & Hx). destruct (Z.eq_dec i t) as [->|]; [right; exact Hx|].
            left. exists i. split; [clear - Hi n0; lia|exact Hx].
          * intros [(i & Hi & Hx)|Hx]; [exists i|exists t]; (split; [clear - Hi Ht; lia|exact Hx]) || (split; [clear - Ht; lia|exact Hx]). }
    intros f. eapply fills_iff; [apply R|]. intros x. destruct f; cbn [tile_set whole_set].
    - rewrite (split_index k x K). tauto.
    - rewrite (split_index gpk x GP). tauto.
    - rewrite (split_index gpk x GP). split.
      + intros (t & Ht & V & X). split; [exact V|]. exists t. split; [exact Ht|exact X].
      + intros (V & t & Ht & X). exists t. split; [exact Ht|]. split; [exact V|exact X].
    - assert (S1 := split_index 1 x ltac:(clear; lia)). rewrite Z.mul_1_r in S1. rewrite S1. split.
      + intros (t & Ht & V & j & A & B & ->). split; [exact V|]. exists t. split; [exact Ht|].
        exists j, 0. split; [exact A|]. split; [exact B|]. split; [clear; lia|ring].
      + intros (V & t & Ht & j & c & A & B & C & ->). exists t. split; [exact Ht|]. split; [exact V|].
        exists j. split; [exact A|]. split; [exact B|]. clear - C. lia.
  Qed.
End Weights.
