(** Proofs about the CPU operators, part 2: indexing, gather and embedding. *)
From Verif Require Import Base DTypeModel ParamModel ParamSpec ParamProofs TensorModel TensorSpec TensorProofs TensorSplit
  OpsModel OpsSpec OpsProofs.
Local Open Scope Z_scope.

Lemma vget_nth {X} (l : list X) i d : 0 <= i < zlen l -> vget l i = ROk (nth (Z.to_nat i) l d).
Proof.
  intro H. unfold vget, zlen in *. replace (0 <=? i) with true by lia.
  rewrite (nth_error_nth' l d) by lia. reflexivity.
Qed.
Lemma linear_ravel shape : forall idx, length idx = length shape -> linear shape idx = (ravel shape idx, product shape).
Proof.
  induction shape as [|d ds IH]; intros [|i r] H; cbn [length] in H; try lia; [reflexivity|].
  cbn [linear]. rewrite IH by lia. cbn [ravel]. rewrite product_cons. f_equal; ring.
Qed.
Lemma contents_1 {A} (t : tns A) n (l : list A) : x_shape t = [zlen l] -> contents t = map Some l -> 0 <= n < zlen l ->
  elem t [n] = nth_error l (Z.to_nat n).
Proof.
  intros Hs Hc Hn. unfold contents in Hc. rewrite Hs in Hc.
  assert (E : nth_error (map (elem t) (indices [zlen l])) (Z.to_nat n) = nth_error (map Some l) (Z.to_nat n)) by (f_equal; exact Hc).
  rewrite !nth_error_map in E. cbn [indices] in E.
  assert (E2 : nth_error (flat_map (fun i => map (cons (Z.of_nat i)) [[]]) (seq 0 (Z.to_nat (zlen l)))) (Z.to_nat n) = Some [n]).
  { rewrite flat_map_concat_map. cbn [map].
    assert (G : forall s m, concat (map (fun i => [[Z.of_nat i]]) (seq s m)) = map (fun i => [Z.of_nat i]) (seq s m)).
    { intros s m; revert s; induction m as [|m IH]; intro s; [reflexivity|]. cbn [seq map concat app]. f_equal. apply IH. }
    rewrite G. rewrite nth_error_map. rewrite (nth_error_nth' _ 0%nat) by (rewrite seq_length; unfold zlen in *; lia).
    rewrite seq_nth by (unfold zlen in *; lia). cbn [option_map]. do 2 f_equal. lia. }
  rewrite E2 in E. cbn [option_map] in E. destruct (nth_error l (Z.to_nat n)); cbn [option_map] in E; congruence.
Qed.

Lemma index_shape_ok pre : forall shape args poss, select_all shape args poss ->
  index_shape (length pre) args (pre ++ shape) = ROk (map zlen poss).
Proof.
  intros shape args poss H. revert pre. induction H as [|d a p ds al ps Hs H IH]; intro pre; [reflexivity|].
  specialize (IH (pre ++ [d])). rewrite app_length in IH. cbn [length] in IH. rewrite Nat.add_1_r, <- app_assoc in IH. cbn [app] in IH.
  destruct Hs as [Hin Hs]. destruct a as [sp|l|t]; cbn [index_shape].
  - destruct Hs as (Hst & Hstep & Hb & Hp). cbv zeta in Hb, Hp.
    assert (E1 : vget (pre ++ d :: ds) (Z.of_nat (length pre)) = ROk d).
    { rewrite (vget_nth _ _ 0) by (unfold zlen; rewrite app_length; cbn [length]; lia).
      rewrite Nat2Z.id, app_nth2, Nat.sub_diag by lia. reflexivity. }
    rewrite E1.
    assert (E2 : (if sl_end sp =? kAll then ROk d else ROk (sl_end sp)) = ROk (if sl_end sp =? kAll then d else sl_end sp))
      by (destruct (sl_end sp =? kAll); reflexivity).
    rewrite E2. cbn [rbind]. rewrite IH. cbn [rbind]. replace (sl_step sp =? 0) with false by lia.
    cbn [map]. do 2 f_equal. rewrite Hp. unfold zlen at 1. rewrite map_length, seq_length.
    rewrite Z.quot_div_nonneg by lia. rewrite Z2Nat.id; [reflexivity|]. apply Z.div_pos; lia.
  - rewrite IH. cbn [rbind map]. rewrite Hs. reflexivity.
  - rewrite IH. cbn [rbind map]. destruct Hs as (_ & -> & _). reflexivity.
Qed.

Lemma index_coords_ok : forall shape args poss, select_all shape args poss ->
  forall oidx, in_shape (map zlen poss) oidx ->
  index_coords args shape oidx = ROk (Some (pick poss oidx)) /\ in_shape shape (pick poss oidx).
Proof.
  intros shape args poss H. induction H as [|d a p ds al ps Hs H IH]; intros oidx Hi.
  - inversion Hi; subst. split; [reflexivity|constructor].
  - destruct oidx as [|c rest]; [inversion Hi|]. cbn [map] in Hi. apply in_shape_cons in Hi as [Hc Hr].
    destruct (IH rest Hr) as [E I]. destruct Hs as [Hin Hs].
    set (v := nth (Z.to_nat c) p 0).
    assert (Hv : 0 <= v < d).
    { rewrite Forall_forall in Hin. apply Hin. apply nth_In. unfold zlen in Hc. lia. }
    split; [|cbn [pick]; apply in_shape_cons; auto].
    cbn [index_coords pick]. fold v.
    match goal with |- rbind ?e _ = _ => assert (EP : e = ROk (Some (v, rest))) end.
    { destruct a as [sp|l|t].
      - destruct Hs as (Hst & Hstep & Hb & Hp). cbv zeta in *. do 3 f_equal. subst v. rewrite Hp.
        set (g := fun i => _ + Z.of_nat i * sl_step sp) in *. rewrite Hp in Hc. unfold zlen in Hc. rewrite map_length, seq_length in Hc.
        rewrite (nth_indep _ 0 (g 0%nat)) by (rewrite map_length, seq_length; lia).
        rewrite map_nth, seq_nth by lia. unfold g. rewrite Nat.add_0_l, Z2Nat.id by lia. reflexivity.
      - subst l. replace (zlen p <=? c) with false by lia. rewrite (vget_nth _ _ 0) by lia. reflexivity.
      - destruct Hs as (Ht & Hsh & Hcont). cbv zeta. rewrite Hsh. cbn [length firstn skipn rev app].
        change (S (length rest) <? 1)%nat with false. cbv iota. cbn [index_tensor_pos].
        replace (c * 1 + 0) with c by lia.
        assert (U : unravel [zlen p] c = [c]).
        { unfold unravel. cbn [unravel_aux fst]. rewrite Z.mod_small by lia. reflexivity. }
        rewrite U. rewrite at_load_ok; [|auto|rewrite Hsh; apply in_shape_cons; split; [lia|constructor]].
        cbn [rbind]. rewrite (contents_1 t c p) by auto.
        unfold v. rewrite (nth_error_nth' _ 0) by (unfold zlen in Hc; lia). reflexivity. }
    rewrite EP. cbn [rbind]. replace ((v <? 0) || (d <=? v)) with false by lia. rewrite E. reflexivity.
Qed.

Lemma select_all_rank shape args poss : select_all shape args poss -> fold_left Z.add (map index_rank args) 0 = zlen shape /\ length poss = length shape.
Proof.
  intro H. assert (G : (forall k, fold_left Z.add (map index_rank args) k = k + zlen shape) /\ length poss = length shape).
  { induction H as [|d a p ds al ps Hs H [IH IH2]]; [split; [intro; cbn; unfold zlen; cbn; lia|reflexivity]|]. split; [|cbn [length]; lia].
    intro k. cbn [map fold_left]. rewrite IH. unfold zlen. cbn [length].
    assert (index_rank a = 1) as -> by (destruct a; cbn [index_rank]; auto; destruct Hs as (_ & _ & -> & _); reflexivity).
    lia. }
  destruct G as [G G2]. split; [rewrite G; lia|auto].
Qed.

Theorem index_correct {A} (x : tns A) args poss :
  tensor_ok x -> contiguous x -> product (x_shape x) <> 0 ->
  select_all (x_shape x) args poss -> forallb is_slice args = false ->
  exists out, index_op x args = ROk (Some out) /\ produces (map zlen poss) (fun idx => elem x (pick poss idx)) out.
Proof.
  intros Ox Cx Hn Hs Hf. unfold index_op. cbv zeta. rewrite Hf. destruct (select_all_rank _ _ _ Hs) as [E1 E2]. rewrite E1, Z.eqb_refl. cbn [negb].
  assert (ES := index_shape_ok [] _ _ _ Hs). cbn [length app] in ES. rewrite ES. cbn [rbind].
  set (os := map zlen poss).
  assert (Hr : (1 <= length os <= 16)%nat) by (unfold os; rewrite map_length, E2; apply Ox).
  assert (Hd : Forall (fun d => 0 <= d) os) by (unfold os; apply Forall_map, Forall_forall; intros; unfold zlen; lia).
  rewrite fresh_ok by auto. cbn [rbind x_buf x_view].
  assert (EC : is_contiguous (x_view x) = true) by (apply is_contiguous_spec; [apply Ox|auto]). rewrite EC. cbn [negb].
  rewrite !numel_product. replace (product (x_shape x) =? 0) with false by lia.
  set (F := fun idx => elem x (pick poss idx)).
  destruct (good_loop (at_pos os F) (product os) (fun i => eq i)
    (fun i o => do c <- index_coords args (x_shape x) (unravel os i);
        match c with
        | None => ROk o
        | Some iidx => copy1 (x_buf x) (x_offset x + fst (linear (x_shape x) iidx)) (fst (linear os (unravel os i))) o
        end) (mkBuf (product os) (fun _ => None)) (product os) eq_refl) as (o & E & G).
  { intros i b Hi Hb. cbv zeta. destruct (unravel_spec os i Hd Hi) as [I1 I2].
    destruct (index_coords_ok _ _ _ Hs _ I1) as [C1 C2]. rewrite C1. cbn [rbind].
    rewrite !linear_ravel by (apply in_shape_length; auto). cbn [fst]. rewrite I2.
    assert (EA := contiguous_address x _ Cx (in_shape_length _ _ C2)). rewrite <- EA.
    apply good_copy1; [apply Ox; auto|lia|reflexivity]. }
  rewrite E. cbn [rbind]. eexists. split; [reflexivity|].
  eapply produces_good; eauto. intros pos Hp. exists pos. auto.
Qed.

(* ---------------- gather ---------------- *)
Lemma shape_split (shape : list Z) d : (d < length shape)%nat -> shape = firstn d shape ++ nth d shape 0 :: skipn (S d) shape.
Proof.
  revert d; induction shape as [|x l IH]; intros [|d] H; cbn [length] in H; try lia; [reflexivity|].
  cbn [firstn nth skipn app]. f_equal. apply IH. lia.
Qed.
Lemma product_firstn_nonneg l k : Forall (fun d => 0 <= d) l -> 0 <= product (firstn k l).
Proof. intro H. apply product_nonneg. apply Forall_forall. intros y Hy. rewrite Forall_forall in H. apply H. rewrite <- (firstn_skipn k l). apply in_or_app; auto. Qed.
Lemma product_skipn_nonneg l k : Forall (fun d => 0 <= d) l -> 0 <= product (skipn k l).
Proof. intro H. apply product_nonneg. apply Forall_forall. intros y Hy. rewrite Forall_forall in H. apply H. rewrite <- (firstn_skipn k l). apply in_or_app; auto. Qed.
Lemma nth_nonneg l k : Forall (fun d => 0 <= d) l -> 0 <= nth k l 0.
Proof.
  intro H. destruct (Nat.lt_ge_cases k (length l)) as [L|L]; [|rewrite nth_overflow by auto; lia].
  rewrite Forall_forall in H. apply H, nth_In; auto.
Qed.

Lemma in_shape_app_inv s1 s2 idx : in_shape (s1 ++ s2) idx ->
  in_shape s1 (firstn (length s1) idx) /\ in_shape s2 (skipn (length s1) idx) /\
  idx = firstn (length s1) idx ++ skipn (length s1) idx.
Proof.
  intro H. assert (L := in_shape_length _ _ H). rewrite app_length in L.
  assert (E := eq_sym (firstn_skipn (length s1) idx)). rewrite E in H.
  apply in_shape_app in H; [|rewrite firstn_length; lia]. tauto.
Qed.

Lemma skipn_plus {X} (l : list X) : forall a b, skipn a (skipn b l) = skipn (b + a) l.
Proof.
  induction l as [|x l IH]; intros a [|b]; cbn [skipn Nat.add]; auto. apply skipn_nil.
Qed.

Theorem gather_correct {A} (table : tns A) (indices : tns Z) dim d :
  tensor_ok table -> contiguous table -> tensor_ok indices -> contiguous indices ->
  names_dim (length (x_shape table)) dim d ->
  (length (x_shape table) - 1 + length (x_shape indices) <= 16)%nat ->
  (forall idx, in_shape (x_shape indices) idx -> elem indices idx <> None) ->
  exists out, gather_op table indices dim = ROk out /\
    produces (firstn d (x_shape table) ++ x_shape indices ++ skipn (S d) (x_shape table)) (gather_elem table indices d) out.
Proof.
  intros Ot Ct Oi Ci [Hd Hdim] Hrank Hw. unfold gather_op.
  set (shape := x_shape table) in *. set (ish := x_shape indices) in *.
  assert (EN : norm_dim (zlen shape) dim = Z.of_nat d) by (unfold norm_dim, zlen; destruct (dim <? 0) eqn:Q; lia).
  rewrite EN. unfold zlen. replace ((0 <=? Z.of_nat d) && (Z.of_nat d <? Z.of_nat (length shape))) with true by lia.
  cbn [negb]. cbv zeta. rewrite Nat2Z.id.
  set (pre := firstn d shape). set (post := skipn (S d) shape). set (n := nth d shape 0).
  assert (Lpre : length pre = d) by (unfold pre; rewrite firstn_length; lia).
  assert (Esh : shape = pre ++ n :: post) by (apply shape_split; auto).
  assert (Dt : Forall (fun d => 0 <= d) shape) by apply Ot. assert (Di : Forall (fun d => 0 <= d) ish) by apply Oi.
  set (os := pre ++ ish ++ post).
  assert (Hr : (1 <= length os <= 16)%nat).
  { unfold os. rewrite !app_length. assert (length shape = length pre + S (length post))%nat by (rewrite Esh at 1; rewrite app_length; reflexivity).
    assert (R := ok_rank _ Oi). fold ish in R. lia. }
  assert (Hos : Forall (fun d => 0 <= d) os).
  { unfold os. rewrite Esh in Dt. apply Forall_app in Dt as [D1 D2]. inversion D2 as [|? ? D3 D4]. repeat (apply Forall_app; split); auto. }
  rewrite fresh_ok by auto. cbn [rbind x_buf x_view].
  rewrite (vget_nth shape _ 0) by (unfold zlen; lia). rewrite Nat2Z.id. fold n. cbn [rbind].
  rewrite !numel_product. set (O := product pre). set (I := product post). set (C := product ish).
  assert (HO : 0 <= O) by (apply product_firstn_nonneg; auto). assert (HI : 0 <= I) by (apply product_skipn_nonneg; auto).
  assert (HC : 0 <= C) by (apply product_nonneg; auto).
  assert (Hn : 0 <= n) by (apply nth_nonneg; auto).
  assert (Eos : product os = O * (C * I)) by (unfold os; rewrite !product_app; reflexivity).
  assert (Est : product shape = O * (n * I)) by (rewrite Esh, product_app, product_cons; reflexivity).
  set (F := gather_elem table indices d).
  assert (Dpre : Forall (fun d => 0 <= d) pre) by (rewrite Esh in Dt; apply Forall_app in Dt; tauto).
  assert (Dpost : Forall (fun d => 0 <= d) post) by (rewrite Esh in Dt; apply Forall_app in Dt as [_ D2]; inversion D2; auto).
  (* what F shows at position ((o * C) + i) * I + k *)
  assert (FP : forall o i k v, 0 <= o < O -> 0 <= i < C -> 0 <= k < I -> b_at (x_buf indices) (x_offset indices + i) = Some v ->
     at_pos os F ((o * C + i) * I + k) =
     (if (- n <=? v) && (v <? n) then b_at (x_buf table) (x_offset table + (o * n + wrap_index n v) * I + k) else None)).
  { intros o i k v Ho Hi Hk Hv.
    destruct (unravel_spec pre o Dpre Ho) as [A1 A2]. destruct (unravel_spec ish i Di Hi) as [B1 B2].
    destruct (unravel_spec post k Dpost Hk) as [C1 C2].
    set (po := unravel pre o) in *. set (pi := unravel ish i) in *. set (pk := unravel post k) in *.
    assert (IS : in_shape os (po ++ pi ++ pk)).
    { unfold os. apply in_shape_app; [apply in_shape_length; auto|]. split; auto.
      apply in_shape_app; [apply in_shape_length; auto|]. auto. }
    assert (RV : ravel os (po ++ pi ++ pk) = (o * C + i) * I + k).
    { unfold os. rewrite ravel_app by (apply in_shape_length; auto). rewrite ravel_app by (apply in_shape_length; auto).
      rewrite A2, B2, C2, product_app. fold C I. ring. }
    rewrite <- RV, at_pos_ravel by auto. unfold F, gather_elem. fold shape ish.
    assert (Lpo : length po = d) by (rewrite (in_shape_length _ _ A1); auto).
    assert (Lpi : length pi = length ish) by (apply in_shape_length; auto).
    rewrite skipn_app, skipn_all2, Lpo, Nat.sub_diag by lia. cbn [skipn app].
    rewrite <- Lpi, firstn_app, Nat.sub_diag, firstn_all. cbn [firstn]. rewrite app_nil_r.
    assert (EI : elem indices pi = Some v).
    { unfold elem. rewrite contiguous_address by (auto; fold ish; lia). fold ish. rewrite B2. exact Hv. }
    rewrite EI. fold n. destruct ((- n <=? v) && (v <? n)) eqn:Q; [|reflexivity].
    rewrite firstn_app, Lpo, Nat.sub_diag, <- Lpo, firstn_all. cbn [firstn]. rewrite app_nil_r.
    rewrite skipn_app, skipn_all2 by lia. replace (length po + length pi - length po)%nat with (length pi) by lia.
    rewrite skipn_app, skipn_all, Nat.sub_diag. cbn [skipn app].
    unfold elem. rewrite contiguous_address; [|auto|].
    2:{ fold shape. rewrite Esh, !app_length. cbn [length]. rewrite (in_shape_length _ _ C1). lia. }
    fold shape. rewrite Esh. rewrite ravel_app by lia. cbn [ravel]. rewrite product_cons, A2, C2. fold I.
    f_equal. ring. }
  destruct (good_loop (at_pos os F) O (fun o p => o * C * I <= p < (o + 1) * C * I /\
      (exists i k v, 0 <= i < C /\ 0 <= k < I /\ p = (o * C + i) * I + k /\ b_at (x_buf indices) (x_offset indices + i) = Some v /\
        - n <= v < n))
    (fun o b => zloop C (fun i b =>
        do v <- load (x_buf indices) (x_offset indices + i);
        match v with
        | None => RUB
        | Some idx =>
            if ((if idx <? 0 then idx + n else idx) <? 0) || (n <=? (if idx <? 0 then idx + n else idx)) then ROk b
            else memcpy (x_buf table) (x_offset table + (o * n + (if idx <? 0 then idx + n else idx)) * I) ((o * C + i) * I) I b
        end) b) (mkBuf (product os) (fun _ => None)) (product os) eq_refl) as (ob & E & G).
  { intros o b Ho Hb.
    destruct (good_loop (at_pos os F) C (fun i p => exists k v, 0 <= k < I /\ p = (o * C + i) * I + k /\
        b_at (x_buf indices) (x_offset indices + i) = Some v /\ - n <= v < n)
      (fun i b =>
        do v <- load (x_buf indices) (x_offset indices + i);
        match v with
        | None => RUB
        | Some idx =>
            if ((if idx <? 0 then idx + n else idx) <? 0) || (n <=? (if idx <? 0 then idx + n else idx)) then ROk b
            else memcpy (x_buf table) (x_offset table + (o * n + (if idx <? 0 then idx + n else idx)) * I) ((o * C + i) * I) I b
        end) b (product os) Hb) as (b1 & E1 & G1).
    { intros i b1 Hi Hb1.
      destruct (contiguous_inside indices i Oi Ci Hi) as [Q1 Q2].
      rewrite load_ok by lia. cbn [rbind].
      destruct (b_at (x_buf indices) (x_offset indices + i)) as [v|] eqn:Ev.
      2:{ exfalso. destruct (unravel_spec ish i Di Hi) as [B1 B2]. apply (Hw _ B1). unfold elem.
          rewrite contiguous_address by (auto; apply in_shape_length; auto). fold ish. rewrite B2. exact Ev. }
      cbv zeta. change (if v <? 0 then v + n else v) with (wrap_index n v).
      assert (HV : (wrap_index n v <? 0) || (n <=? wrap_index n v) = negb ((- n <=? v) && (v <? n)))
        by (unfold wrap_index; destruct (v <? 0) eqn:Q; lia).
      rewrite HV. destruct ((- n <=? v) && (v <? n)) eqn:QV; cbn [negb].
      - assert (WB : 0 <= wrap_index n v < n) by (unfold wrap_index; destruct (v <? 0) eqn:Q; lia).
        assert (BT : forall k, 0 <= k < I -> 0 <= x_offset table + (o * n + wrap_index n v) * I + k < b_len (x_buf table)).
        { intros k Hk. assert (M : 0 <= o * n + wrap_index n v < O * n) by nia.
          assert (B := contiguous_inside table ((o * n + wrap_index n v) * I + k) Ot Ct).
          fold shape in B. rewrite Est in B.
          assert (R : 0 <= (o * n + wrap_index n v) * I + k < O * (n * I)).
          { set (m := o * n + wrap_index n v) in *. replace (O * (n * I)) with (O * n * I) by ring. nia. }
          specialize (B R). lia. }
        destruct (good_memcpy (at_pos os F) (x_buf table) (x_offset table + (o * n + wrap_index n v) * I) ((o * C + i) * I) I b1) as (b2 & E2 & G2).
        + intro HI'. assert (X1 := BT 0 ltac:(lia)). assert (X2 := BT (I - 1) ltac:(lia)). lia.
        + intro HI'. rewrite Hb1, Eos. assert (M : 0 <= o * C + i < O * C) by nia. set (m := o * C + i) in *.
          replace (O * (C * I)) with (O * C * I) by ring. split; nia.
        + intros k Hk. rewrite (FP o i k v) by auto. rewrite QV. reflexivity.
        + exists b2. split; auto. eapply good_weaken; [|exact G2]. intros p (k & v' & Hk & -> & _). nia.
      - exists b1. split; auto. eapply good_weaken; [|apply good_refl]. intros p (k & v' & Hk & -> & Ev' & Hr'). assert (v' = v) by congruence. lia. }
    exists b1. split; auto. eapply good_weaken; [|exact G1].
    intros p [Hp (i & k & v & Hi & Hk & E2 & E3 & E4)]. exists i. split; auto. exists k, v. auto. }
  rewrite E. cbn [rbind]. eexists. split; [reflexivity|].
  (* unwritten cells are the out-of-range indices *)
  apply produces_intro; auto; [rewrite (g_len _ _ _ _ G); reflexivity|].
  intros idx Hidx. assert (Hb := ravel_bounds _ _ Hidx). set (p := ravel os idx) in *.
  assert (EF : at_pos os F p = F idx) by (apply at_pos_ravel; auto).
  assert (HCI : 0 < C * I) by (rewrite Eos in Hb; nia). assert (HIp : 0 < I) by nia. assert (HCp : 0 < C) by nia.
  set (o := p / (C * I)). set (i := (p / I) mod C). set (k := p mod I).
  assert (Ho : 0 <= o < O) by (unfold o; split; [apply Z.div_pos; lia|apply Z.div_lt_upper_bound; [lia|]; rewrite Eos in Hb; lia]).
  assert (Hi : 0 <= i < C) by (apply Z.mod_pos_bound; lia). assert (Hk : 0 <= k < I) by (apply Z.mod_pos_bound; lia).
  assert (Ep : p = (o * C + i) * I + k).
  { unfold o, i, k. assert (D1 := Z_div_mod_eq_full p I). assert (D2 := Z_div_mod_eq_full (p / I) C).
    assert (D3 : p / (C * I) = p / I / C) by (rewrite Z.mul_comm; rewrite Z.div_div by lia; reflexivity).
    rewrite D3. nia. }
  destruct (b_at (x_buf indices) (x_offset indices + i)) as [v|] eqn:Ev.
  2:{ exfalso. destruct (unravel_spec ish i Di Hi) as [B1 B2]. apply (Hw _ B1). unfold elem.
      rewrite contiguous_address by (auto; apply in_shape_length; auto). fold ish. rewrite B2. exact Ev. }
  destruct ((- n <=? v) && (v <? n)) eqn:QV.
  - rewrite <- EF. apply (g_set _ _ _ _ G). exists o. split; auto. split; [nia|]. exists i, k, v. apply andb_prop in QV as [V1 V2]. apply Z.leb_le in V1. apply Z.ltb_lt in V2.
    split; [exact Hi|]. split; [exact Hk|]. auto.
  - assert (EN2 : F idx = None) by (rewrite <- EF, Ep, (FP o i k v) by auto; rewrite QV; reflexivity).
    rewrite EN2. destruct (g_old _ _ _ _ G p) as [H|H]; [rewrite H; reflexivity|].
    rewrite H, EF. exact EN2.
Qed.

(* ---------------- embedding ---------------- *)
Lemma zloop_tns {A} n (body : Z -> tns A -> res (tns A)) (g : Z -> buf A -> res (buf A)) v :
  (forall i b, body i (mkTns v b) = do b' <- g i b; ROk (mkTns v b')) ->
  forall b, zloop n body (mkTns v b) = do b' <- zloop n g b; ROk (mkTns v b').
Proof.
  intros H b. unfold zloop. induction (Z.to_nat n) as [|m IH]; cbn [loop]; [reflexivity|].
  rewrite IH. destruct (loop m g b); cbn [rbind]; auto.
Qed.
(** A loop one of whose iterations is always undefined and whose other iterations
    preserve an invariant or are undefined. *)
Lemma zloop_ub {S} (P : S -> Prop) n body i0 : 0 <= i0 < n ->
  (forall i s, 0 <= i < n -> P s -> body i s = RUB \/ exists s', body i s = ROk s' /\ P s') ->
  (forall s, P s -> body i0 s = RUB) ->
  forall s : S, P s -> zloop n body s = RUB.
Proof.
  intros Hi Hall Hbad s Hs. unfold zloop.
  assert (G : forall m, (m <= Z.to_nat n)%nat ->
     (loop m body s = RUB \/ (exists s', loop m body s = ROk s' /\ P s')) /\ ((Z.to_nat i0 < m)%nat -> loop m body s = RUB)).
  { induction m as [|m IH]; intro Hm; cbn [loop]; [split; [right; eauto|lia]|].
    destruct (IH ltac:(lia)) as [[E|(s' & E & Ps)] B]; rewrite E; cbn [rbind]; [auto|].
    split; [apply Hall; auto; lia|]. intro L. destruct (Nat.eq_dec (Z.to_nat i0) m) as [<-|N].
    - rewrite Z2Nat.id by lia. auto.
    - rewrite B in E by lia. discriminate. }
  apply G; lia.
Qed.

Theorem embedding_correct {A} (weight : tns A) V hidden ids B T :
  tensor_ok weight -> contiguous weight -> x_shape weight = [V; hidden] ->
  tensor_ok ids -> x_shape ids = [B; T] ->
  (forall b s, 0 <= b < B -> 0 <= s < T -> exists id, elem ids [b; s] = Some id /\ 0 <= id < V) ->
  exists out, embedding_op weight hidden ids = ROk out /\ produces [B; T; hidden] (embedding_elem weight ids) out.
Proof.
  intros Ow Cw Sw Oi Si Hid. unfold embedding_op. rewrite Si.
  rewrite (vget_nth [B; T] 0 0), (vget_nth [B; T] 1 0) by (unfold zlen; cbn; lia). cbn [rbind].
  change (nth (Z.to_nat 0) [B; T] 0) with B. change (nth (Z.to_nat 1) [B; T] 0) with T.
  set (os := [B; T; hidden]). rewrite fresh_ok by (cbn; lia). cbn [rbind].
  assert (DB : 0 <= B) by (assert (D := ok_dims _ Oi); rewrite Si in D; inversion D; auto).
  assert (DT : 0 <= T) by (assert (D := ok_dims _ Oi); rewrite Si in D; inversion D as [|? ? ? D2]; inversion D2; auto).
  assert (DH : 0 <= hidden) by (assert (D := ok_dims _ Ow); rewrite Sw in D; inversion D as [|? ? ? D2]; inversion D2; auto).
  assert (Hos : Forall (fun d => 0 <= d) os) by (unfold os; repeat constructor; auto).
  assert (Pos : product os = B * (T * hidden)) by (unfold os; rewrite !product_cons; change (product []) with 1; ring).
  set (vw := mkV os (default_strides os) 0).
  set (F := embedding_elem weight ids).
  set (g := fun b s (o : buf A) =>
    do v <- at_load ids [b; s];
    match v with
    | None => RUB
    | Some id => memcpy (x_buf weight) (x_offset weight + hidden * id) ((b * T + s) * hidden) hidden o
    end).
  rewrite (zloop_tns B _ (fun b o => zloop T (g b) o) vw).
  2:{ intros b o. rewrite (zloop_tns T _ (g b) vw); [reflexivity|].
      intros s o'. unfold g. destruct (at_load ids [b; s]) as [[id|]| | |]; cbn [rbind]; auto.
      assert (EO : offsetted (x_view (mkTns vw o')) [b; s; 0] = ROk ((b * T + s) * hidden)).
      { unfold offsetted, vw, os. cbn [x_view v_shape v_stride v_offset]. unfold zlen. cbn [length Z.of_nat].
        rewrite Z.eqb_refl. f_equal. rewrite dot_ravel by reflexivity. cbn [ravel].
        rewrite !product_cons. change (product []) with 1. ring. }
      rewrite EO. cbn [rbind x_buf x_view]. reflexivity. }
  assert (FP : forall b s id k, 0 <= b < B -> 0 <= s < T -> 0 <= k < hidden -> elem ids [b; s] = Some id ->
     at_pos os F ((b * T + s) * hidden + k) = b_at (x_buf weight) (x_offset weight + hidden * id + k)).
  { intros b s id k Hb Hs Hk E.
    assert (IS : in_shape os [b; s; k]) by (unfold os; repeat (apply in_shape_cons; split; auto); constructor).
    assert (RV : ravel os [b; s; k] = (b * T + s) * hidden + k) by (unfold os; cbn [ravel]; rewrite !product_cons; change (product []) with 1; ring).
    rewrite <- RV, at_pos_ravel by auto. unfold F, embedding_elem. cbn [firstn skipn]. rewrite E.
    unfold elem. rewrite contiguous_address by (auto; rewrite Sw; reflexivity). rewrite Sw. cbn [ravel].
    rewrite !product_cons. change (product []) with 1. f_equal. ring. }
  destruct (good_loop (at_pos os F) B (fun b p => exists s k, 0 <= s < T /\ 0 <= k < hidden /\ p = (b * T + s) * hidden + k)
     (fun b o => zloop T (g b) o) (mkBuf (product os) (fun _ => None)) (product os) eq_refl) as (o & E & G).
  { intros b o Hb Ho.
    destruct (good_loop (at_pos os F) T (fun s p => exists k, 0 <= k < hidden /\ p = (b * T + s) * hidden + k) (g b) o (product os) Ho) as (o1 & E1 & G1).
    { intros s o1 Hs Ho1. unfold g. destruct (Hid b s Hb Hs) as (id & Eid & Rid).
      rewrite at_load_ok by (auto; rewrite Si; repeat (apply in_shape_cons; split; auto); constructor).
      rewrite Eid. cbn [rbind].
      assert (BT : forall k, 0 <= k < hidden -> 0 <= x_offset weight + hidden * id + k < b_len (x_buf weight)).
      { intros k Hk. assert (BB := contiguous_inside weight (hidden * id + k) Ow Cw).
        rewrite Sw, !product_cons in BB. change (product []) with 1 in BB. assert (0 <= hidden * id + k < V * (hidden * 1)) by nia. lia. }
      destruct (good_memcpy (at_pos os F) (x_buf weight) (x_offset weight + hidden * id) ((b * T + s) * hidden) hidden o1) as (o2 & E2 & G2).
      - intro Hh. assert (X1 := BT 0 ltac:(lia)). assert (X2 := BT (hidden - 1) ltac:(lia)). lia.
      - intro Hh. rewrite Ho1, Pos. assert (M : 0 <= b * T + s < B * T) by nia. set (m := b * T + s) in *.
        replace (B * (T * hidden)) with (B * T * hidden) by ring. split; nia.
      - intros k Hk. symmetry. apply FP; auto.
      - exists o2. split; auto. eapply good_weaken; [|exact G2]. intros p (k & Hk & ->). lia. }
    exists o1. split; auto. eapply good_weaken; [|exact G1]. intros p (s & k & Hs & Hk & ->). exists s. split; auto. exists k. auto. }
  rewrite E. cbn [rbind]. eexists. split; [reflexivity|].
  eapply produces_good; eauto; [cbn; lia|].
  intros p Hp. destruct (unravel_spec os p Hos Hp) as [I1 I2]. unfold os in I1.
  destruct (unravel [B; T; hidden] p) as [|b [|s [|k [|? ?]]]] eqn:EU; try (apply in_shape_length in I1; discriminate I1).
  apply in_shape_cons in I1 as [Hb I1]. apply in_shape_cons in I1 as [Hs I1]. apply in_shape_cons in I1 as [Hk _].
  exists b. split; auto. exists s, k. split; auto. split; auto. rewrite <- I2. unfold os at 2. rewrite EU.
  unfold os. cbn [ravel]. rewrite !product_cons. change (product []) with 1. ring.
Qed.

Lemma memcpy_outside {A} (src : buf A) s d n o : 0 < n -> (s < 0 \/ b_len src < s + n) -> memcpy src s d n o = RUB.
Proof.
  intros Hn Hs. unfold memcpy.
  destruct Hs as [Hs|Hs].
  - apply (zloop_ub (fun _ => True) n _ 0); auto; [lia| |].
    + intros i b Hi _. unfold copy1, load, store. destruct ((0 <=? s + i) && (s + i <? b_len src)); cbn [rbind]; auto.
      destruct ((0 <=? d + i) && (d + i <? b_len b)); cbn [rbind]; eauto.
    + intros b _. unfold copy1, load. replace ((0 <=? s + 0) && (s + 0 <? b_len src)) with false by lia. reflexivity.
  - apply (zloop_ub (fun _ => True) n _ (n - 1)); auto; [lia| |].
    + intros i b Hi _. unfold copy1, load, store. destruct ((0 <=? s + i) && (s + i <? b_len src)); cbn [rbind]; auto.
      destruct ((0 <=? d + i) && (d + i <? b_len b)); cbn [rbind]; eauto.
    + intros b _. unfold copy1, load. replace ((0 <=? s + (n - 1)) && (s + (n - 1) <? b_len src)) with false by lia. reflexivity.
Qed.
Lemma memcpy_ok_or_ub {A} (src : buf A) s d n o : memcpy src s d n o = RUB \/ exists o', memcpy src s d n o = ROk o'.
Proof.
  unfold memcpy, zloop. induction (Z.to_nat n) as [|m IH]; cbn [loop]; [eauto|].
  destruct IH as [->|(o' & ->)]; cbn [rbind]; auto.
  unfold copy1, load, store. destruct ((0 <=? _) && _); cbn [rbind]; auto. destruct ((0 <=? _) && _); eauto.
Qed.
Lemma zloop_ok_or_ub {S} n (body : Z -> S -> res S) s :
  (forall i s, 0 <= i < n -> body i s = RUB \/ exists s', body i s = ROk s') -> zloop n body s = RUB \/ exists s', zloop n body s = ROk s'.
Proof.
  intro H. unfold zloop. assert (G : forall m, (m <= Z.to_nat n)%nat -> loop m body s = RUB \/ exists s', loop m body s = ROk s').
  { induction m as [|m IH]; intro L; cbn [loop]; [eauto|]. destruct (IH ltac:(lia)) as [->|(s' & ->)]; cbn [rbind]; auto. apply H. lia. }
  apply G. lia.
Qed.

(** A token id outside the table is an access outside the table's storage. *)
Theorem embedding_out_of_range {A} (weight : tns A) V hidden ids B T b0 s0 id :
  owns_storage weight -> x_shape weight = [V; hidden] -> 0 < hidden -> 0 <= V ->
  tensor_ok ids -> x_shape ids = [B; T] ->
  0 <= b0 < B -> 0 <= s0 < T -> elem ids [b0; s0] = Some id -> (id < 0 \/ V <= id) ->
  embedding_op weight hidden ids = RUB.
Proof.
  intros Ow Sw Hh HV Oi Si Hb0 Hs0 Eid Rid. unfold embedding_op. rewrite Si.
  rewrite (vget_nth [B; T] 0 0), (vget_nth [B; T] 1 0) by (unfold zlen; cbn; lia). cbn [rbind].
  change (nth (Z.to_nat 0) [B; T] 0) with B. change (nth (Z.to_nat 1) [B; T] 0) with T.
  set (os := [B; T; hidden]). rewrite fresh_ok by (cbn; lia). cbn [rbind].
  set (vw := mkV os (default_strides os) 0).
  set (g := fun b s (o : buf A) =>
    do v <- at_load ids [b; s];
    match v with
    | None => RUB
    | Some id => memcpy (x_buf weight) (x_offset weight + hidden * id) ((b * T + s) * hidden) hidden o
    end).
  rewrite (zloop_tns B _ (fun b o => zloop T (g b) o) vw).
  2:{ intros b o. rewrite (zloop_tns T _ (g b) vw); [reflexivity|].
      intros s o'. unfold g. destruct (at_load ids [b; s]) as [[j|]| | |]; cbn [rbind]; auto.
      assert (EO : offsetted (x_view (mkTns vw o')) [b; s; 0] = ROk ((b * T + s) * hidden)).
      { unfold offsetted, vw, os. cbn [x_view v_shape v_stride v_offset]. unfold zlen. cbn [length Z.of_nat].
        rewrite Z.eqb_refl. f_equal. rewrite dot_ravel by reflexivity. cbn [ravel].
        rewrite !product_cons. change (product []) with 1. ring. }
      rewrite EO. cbn [rbind x_buf x_view]. reflexivity. }
  assert (GO : forall b s o, 0 <= b < B -> 0 <= s < T -> g b s o = RUB \/ exists o', g b s o = ROk o').
  { intros b s o Hb Hs. unfold g. rewrite at_load_ok by (auto; rewrite Si; repeat (apply in_shape_cons; split; auto); constructor).
    cbn [rbind]. destruct (elem ids [b; s]); auto. apply memcpy_ok_or_ub. }
  rewrite (zloop_ub (fun _ => True) B _ b0); auto.
  - intros i s Hi _. destruct (zloop_ok_or_ub T (g i) s) as [H|(s' & H)]; eauto.
  - intros o _. apply (zloop_ub (fun _ => True) T _ s0); auto.
    + intros i s Hi _. destruct (GO b0 i s) as [H|(s' & H)]; eauto.
    + intros o' _. unfold g. rewrite at_load_ok by (auto; rewrite Si; repeat (apply in_shape_cons; split; auto); constructor).
      rewrite Eid. cbn [rbind].
      apply memcpy_outside; auto.
      destruct Ow as [_ Oo Ol]. rewrite Oo, Ol, Sw, !product_cons. change (product []) with 1. nia.
Qed.
