(** Proofs about the dynamic cache and the flash-attention layout of the static one. *)
From Verif Require Import Base DTypeModel ParamModel ParamSpec ParamProofs ParamMore TensorModel TensorSpec TensorProofs TensorViews TensorSplit TensorConcat TensorStack TensorPermute TensorContig PropertiesTensor KVModel KVSpec KVProofs KVSub.
Local Open Scope Z_scope.

(** The tensors an update appends: each input head repeated. *)
Lemma repeat_heads {A} dt (k : tns A) B kv s dim rep : dt = 0 \/ dt = 1 -> 0 < rep -> tensor_ok k ->
  x_shape k = [B; kv; s; dim] -> (rep = 1 \/ contiguous k) ->
  exists k1, repeat_op dt k rep 1 = ROk k1 /\ tensor_ok k1 /\ x_shape k1 = [B; kv * rep; s; dim] /\
    forall b h i d, 0 <= b < B -> 0 <= h < kv * rep -> 0 <= i < s -> 0 <= d < dim ->
      elem k1 [b; h; i; d] = elem k [b; h / rep; i; d].
Proof.
  intros Hdt Hrep Hok Hsh Hc. destruct (Z.eq_dec rep 1) as [->|Hne].
  - exists k. unfold repeat_op. change (1 =? 1) with true. cbv iota. split; [reflexivity|]. split; [auto|].
    split; [rewrite Z.mul_1_r; auto|]. intros. rewrite Z.div_1_r. reflexivity.
  - destruct Hc as [|Hc]; [contradiction|].
    destruct (C38_repeat_partial A dt 1 1%nat k rep Hdt) as (k1 & E & S1 & O1 & _ & E1); auto.
    + rewrite Hsh. split; [cbn; lia|left; reflexivity].
    + lia.
    + exists k1. split; [exact E|]. split; [exact O1|].
      assert (Es : x_shape k1 = [B; kv * rep; s; dim]) by (rewrite S1, Hsh; reflexivity).
      split; [exact Es|]. intros b h i d Hb Hh Hi Hd. destruct (E1 [b; h; i; d]) as [_ ->]; [|reflexivity].
      rewrite Es. apply in_shape4; auto.
Qed.
Lemma concat_rows {A} dt (ck k1 : tns A) B H n s dim rep kv (k : tns A) log : dt = 0 \/ dt = 1 -> 0 <= s ->
  shows ck B H rep dim log -> n = Z.of_nat (length log) ->
  tensor_ok k1 -> x_shape k1 = [B; H; s; dim] -> x_shape k = [B; kv; s; dim] ->
  (forall b h i d, 0 <= b < B -> 0 <= h < H -> 0 <= i < s -> 0 <= d < dim -> elem k1 [b; h; i; d] = elem k [b; h / rep; i; d]) ->
  exists out, concat_op dt [ck; k1] 2 = ROk out /\ shows out B H rep dim (log ++ rows_of k).
Proof.
  intros Hdt Hs (C1 & C2 & C3) Hn Hok Hsh Hshk He. subst n.
  destruct (C17_concat_places A dt 2 2%nat ck [k1] Hdt) as (out & E & S1 & O1 & _ & E1).
  - rewrite C1. split; [cbn; lia|left; reflexivity].
  - constructor; [split; [auto|]|constructor; [split; [auto|]|constructor]].
    + split; [reflexivity|auto].
    + split; [rewrite C1, Hsh; reflexivity|]. rewrite C1, Hsh. intros [|[|[|[|i]]]] Hi; try reflexivity; try lia; destruct i; reflexivity.
  - exists out. split; [exact E|].
    assert (Rk : Z.of_nat (length (rows_of k)) = s) by (apply rows_of_length; auto; rewrite Hshk; reflexivity).
    assert (Es : x_shape out = [B; H; Z.of_nat (length (log ++ rows_of k)); dim]).
    { rewrite S1. unfold extents, total. cbn [map fold_right]. rewrite C1, Hsh. cbn [nth]. rewrite app_length.
      replace (Z.of_nat (length log) + (s + 0)) with (Z.of_nat (length log + length (rows_of k))) by lia. reflexivity. }
    split; [exact Es|]. split; [exact O1|]. intros b h p d k0 i Hb Hh Hd Hp.
    destruct (Nat.lt_ge_cases p (length log)) as [Hlt|Hge].
    + rewrite nth_error_app1 in Hp by auto. rewrite <- (C3 b h p d k0 i) by auto.
      destruct (E1 [] ck [k1] eq_refl [b; h; Z.of_nat p; d]) as [_ E2]; [rewrite C1; apply in_shape4; auto; lia|].
      rewrite <- E2. reflexivity.
    + rewrite nth_error_app2 in Hp by auto. apply rows_of_nth in Hp as [Hp1 Hp2]. injection Hp1 as -> ->. rewrite Hshk in Hp2. cbn [nth] in Hp2.
      rewrite <- (He b h (Z.of_nat (p - length log)) d) by lia.
      destruct (E1 [ck] k1 [] eq_refl [b; h; Z.of_nat (p - length log); d]) as [_ E2]; [rewrite Hsh; apply in_shape4; auto; lia|].
      rewrite <- E2. f_equal. unfold extents, total. cbn [map fold_right]. rewrite C1. unfold with_coord. cbn [upd_nth nth].
      replace (Z.of_nat p) with (Z.of_nat (length log) + 0 + Z.of_nat (p - length log)) by lia. reflexivity.
Qed.
Lemma shows_first {A} (k k1 : tns A) B H s dim rep kv : 0 <= s -> tensor_ok k1 -> x_shape k1 = [B; H; s; dim] -> x_shape k = [B; kv; s; dim] ->
  (forall b h i d, 0 <= b < B -> 0 <= h < H -> 0 <= i < s -> 0 <= d < dim -> elem k1 [b; h; i; d] = elem k [b; h / rep; i; d]) ->
  shows k1 B H rep dim (rows_of k).
Proof.
  intros Hs Hok Hsh Hshk He. assert (Rk : Z.of_nat (length (rows_of k)) = s) by (apply rows_of_length; auto; rewrite Hshk; reflexivity).
  split; [rewrite Rk; exact Hsh|]. split; [exact Hok|]. intros b h p d k0 i Hb Hh Hd Hp.
  apply rows_of_nth in Hp as [Hp1 Hp2]. injection Hp1 as -> ->. rewrite Hshk in Hp2. cbn [nth] in Hp2. apply He; auto; lia.
Qed.

Section Dyn.
Context {A : Type}.
Variables (dt B kv rep dk dv : Z) (fa2 : bool) (q : Z).
Hypothesis Hdt : dt = 0 \/ dt = 1.
Hypothesis Hkv : 0 < kv.
Hypothesis Hrep : 0 < rep.
Hypothesis Hq : if fa2 then rep = 1 else Z.quot q kv = rep.

Definition dlayer_ok (l : option (tns A * tns A)) (log : list (row A) * list (row A)) : Prop :=
  match l with
  | None => log = ([], [])
  | Some (k, v) => shows k B (kv * rep) rep dk (fst log) /\ shows v B (kv * rep) rep dv (snd log)
  end.
Record dynamic_ok (c : dcache A) (ls : logs A) : Prop := {
  do_q : dc_q c = q;
  do_kv : dc_kv c = kv;
  do_fa2 : dc_fa2 c = fa2;
  do_layers : Forall2 dlayer_ok (dc_layers c) ls;
}.
Lemma grown (k : tns A) s dim : dyn_input B kv dim s rep k ->
  exists k1, (if fa2 then ROk k else repeat_op dt k (Z.quot q kv) 1) = ROk k1 /\ tensor_ok k1 /\ x_shape k1 = [B; kv * rep; s; dim] /\
    forall b h i d, 0 <= b < B -> 0 <= h < kv * rep -> 0 <= i < s -> 0 <= d < dim -> elem k1 [b; h; i; d] = elem k [b; h / rep; i; d].
Proof.
  intros [D1 D2 D3]. destruct fa2.
  - subst rep. exists k. split; [reflexivity|]. split; [auto|]. split; [rewrite Z.mul_1_r; auto|]. intros. rewrite Z.div_1_r. reflexivity.
  - rewrite Hq. apply repeat_heads; auto.
Qed.

Lemma dynamic_update_ok (c : dcache A) ls idx k v s s' :
  dynamic_ok c ls -> 0 <= idx < Z.of_nat (length ls) -> 0 <= s -> 0 <= s' -> dyn_input B kv dk s rep k -> dyn_input B kv dv s' rep v ->
  exists c' ks vs, dynamic_update dt c idx k v = ROk (c', (ks, vs)) /\
    dynamic_ok c' (logs_step ls (KvUpdate idx k v)) /\
    shows ks B (kv * rep) rep dk (fst (nth (Z.to_nat idx) (logs_step ls (KvUpdate idx k v)) ([], []))) /\
    shows vs B (kv * rep) rep dv (snd (nth (Z.to_nat idx) (logs_step ls (KvUpdate idx k v)) ([], []))).
Proof.
  intros H Hidx Hs Hs' Hk Hv. destruct H as [H1 H2 H3 H5].
  set (m := Z.to_nat idx) in *. set (log := nth m ls ([], [])) in *.
  assert (Hn : nth_error ls m = Some log) by (apply nth_error_nth'; lia).
  destruct (Forall2_nth_error_r _ _ _ H5 m log Hn) as (l & Hl & L).
  assert (Ll : length (dc_layers c) = length ls) by (apply (Forall2_len _ _ _ H5)).
  destruct (grown k s dk Hk) as (k1 & Ek & K1 & K2 & K3). destruct (grown v s' dv Hv) as (v1 & Ev & V1 & V2 & V3).
  assert (Sk := di_shape _ _ _ _ _ _ Hk). assert (Sv := di_shape _ _ _ _ _ _ Hv).
  assert (HKV : exists ks vs, (match l with
            | None => ROk (k1, v1)
            | Some (ck, cv) =>
                do k' <- concat_op dt [ck; k1] 2;
                do v' <- concat_op dt [cv; v1] 2;
                ROk (k', v')
            end) = ROk (ks, vs) /\ shows ks B (kv * rep) rep dk (fst log ++ rows_of k) /\ shows vs B (kv * rep) rep dv (snd log ++ rows_of v)).
  { destruct l as [[ck cv]|]; cbn [dlayer_ok] in L.
    - destruct L as [L1 L2].
      destruct (concat_rows dt ck k1 B (kv * rep) _ s dk rep kv k (fst log) Hdt Hs L1 eq_refl K1 K2 Sk K3) as (ks & E1 & S1).
      destruct (concat_rows dt cv v1 B (kv * rep) _ s' dv rep kv v (snd log) Hdt Hs' L2 eq_refl V1 V2 Sv V3) as (vs & E2 & S2).
      exists ks, vs. rewrite E1. cbn [rbind]. rewrite E2. cbn [rbind]. auto.
    - exists k1, v1. split; [reflexivity|]. rewrite L. cbn [fst snd app].
      split; [apply (shows_first k k1 B (kv * rep) s dk rep kv)|apply (shows_first v v1 B (kv * rep) s' dv rep kv)]; auto. }
  destruct HKV as (ks & vs & Ekv & S1 & S2).
  unfold dynamic_update. rewrite Sk, Sv.
  change (vget [B; kv; s; dk] 1) with (ROk kv). change (vget [B; kv; s'; dv] 1) with (ROk kv). cbn [rbind].
  rewrite H1, H2, H3, Z.eqb_refl. cbn [negb]. replace (kv =? 0) with false by lia. rewrite andb_false_r.
  cbv zeta. rewrite Ek. cbn [rbind]. rewrite Ev. cbn [rbind]. rewrite (vget_nth _ idx l) by (auto; lia). cbn [rbind].
  rewrite Ekv. cbn [rbind]. unfold vset, zlen. replace ((0 <=? idx) && (idx <? Z.of_nat (length (dc_layers c)))) with true by lia. cbn [rbind]. fold m.
  do 3 eexists. split; [reflexivity|]. cbn [logs_step]. fold m.
  assert (En : nth m (upd_nth m (fun l => (fst l ++ rows_of k, snd l ++ rows_of v)) ls) ([], []) = (fst log ++ rows_of k, snd log ++ rows_of v)).
  { rewrite nth_upd_nth, Nat.eqb_refl. replace (m <? length ls)%nat with true by lia. reflexivity. }
  split; [|rewrite En; auto].
  constructor; cbn [dc_q dc_kv dc_fa2 dc_layers]; auto. apply Forall2_upd; auto.
  intros x y Ex Ey _. rewrite Hn in Ey. injection Ey as <-. cbn [dlayer_ok fst snd]. auto.
Qed.

Lemma dynamic_run_ok (ops : list (Z * tns A * tns A)) : forall c ls, dynamic_ok c ls ->
  dyn_allowed (length ls) B kv dk dv rep ops ->
  exists c', dynamic_run dt c ops = ROk c' /\ dynamic_ok c' (logs_after ls (map dyn_op ops)).
Proof.
  induction ops as [|[[idx k] v] r IH]; intros c ls H Ho; [exists c; split; auto|].
  inversion Ho as [|? ? (Hi & s & s' & Hs & Hs' & Hk & Hv) Hr]; subst.
  destruct (dynamic_update_ok c ls idx k v s s' H Hi Hs Hs' Hk Hv) as (c1 & ks & vs & E & H1 & _).
  cbn [dynamic_run]. rewrite E. cbn [rbind fst map dyn_op].
  change (logs_after ls (KvUpdate idx k v :: map dyn_op r)) with (logs_after (logs_step ls (KvUpdate idx k v)) (map dyn_op r)).
  apply IH; auto. assert (El : length (logs_step ls (KvUpdate idx k v)) = length ls) by (apply length_upd_nth).
  change (dyn_allowed (length (logs_step ls (KvUpdate idx k v))) B kv dk dv rep r). rewrite El. exact Hr.
Qed.
Lemma dynamic_init_ok layers : dynamic_ok (dynamic_init layers q kv fa2) (repeat ([], []) (Z.to_nat layers)).
Proof. constructor; auto. cbn [dynamic_init dc_layers]. induction (Z.to_nat layers); cbn [repeat]; constructor; auto. reflexivity. Qed.
Lemma dynamic_cnt_ok (c : dcache A) l0 ls : dynamic_ok c (l0 :: ls) -> dynamic_cnt c = ROk (Z.of_nat (length (fst l0))).
Proof.
  intros [_ _ _ H]. unfold dynamic_cnt. inversion H as [|x ? ? ? R _]; subst.
  destruct x as [[k v]|]; cbn [dlayer_ok] in R; [|rewrite R; reflexivity].
  destruct R as [(S1 & _) _]. rewrite S1. reflexivity.
Qed.
End Dyn.

(* ---------------- flash-attention layout ---------------- *)
Section FA2.
Context {A : Type}.
Variables (c : scache A).
Let max := sc_max c.
Let kv := sc_kv c.
Let dim := sc_dim c.
Hypothesis Hkv : 0 < kv < kAll.
Hypothesis Hdim : 0 < dim < kAll.
Hypothesis Hmax : 0 <= max < kAll.

Lemma fa2_view_is : fa2_view c = mkV [1; max; kv; dim] [max * (kv * dim); kv * dim; dim; 1] 0.
Proof.
  unfold fa2_view, fa2_shape. fold max kv dim. rewrite !default_strides_cons.
  replace (product [max; kv; dim]) with (max * (kv * dim)) by (unfold product; cbn [fold_right]; ring).
  replace (product [kv; dim]) with (kv * dim) by (unfold product; cbn [fold_right]; ring).
  replace (product [dim]) with dim by (unfold product; cbn [fold_right]; ring). reflexivity.
Qed.
Lemma fa2_address b p h d : address (fa2_view c) [b; p; h; d] = b * (max * (kv * dim)) + p * (kv * dim) + h * dim + d.
Proof. rewrite fa2_view_is, address_dot. cbn [v_offset v_stride dot]. ring. Qed.
Lemma fa2_write_location_ok (b : buf A) cnt s : 0 <= cnt -> 0 <= s -> cnt + s <= max -> b_len b = max * kv * dim ->
  exists t, fa2_write_location c b cnt s = ROk t /\ x_buf t = b /\ x_shape t = [1; s; kv * dim] /\ tensor_ok t /\ contiguous t /\
    forall i h d, address (x_view t) [0; i; h * dim + d] = address (fa2_view c) [0; cnt + i; h; d].
Proof.
  intros Hc Hs Hroom Hb. unfold fa2_write_location.
  assert (1 < kAll) by (unfold kAll; lia). rewrite fa2_view_is, slice_view_fa2 by lia. cbn [rbind v_offset]. unfold create_view.
  change ((1 <=? zlen [1; s; sc_kv c * sc_dim c]) && (zlen [1; s; sc_kv c * sc_dim c] <=? 16)) with true. cbv iota. cbn [rbind v_shape v_stride].
  fold kv dim. eexists. split; [reflexivity|]. cbn [x_buf x_view]. split; [reflexivity|]. split; [reflexivity|].
  assert (Ha : forall a i j, address (mkV [1; s; kv * dim] (default_strides [1; s; kv * dim]) (0 + cnt * (kv * dim))) [a; i; j] = cnt * (kv * dim) + a * (s * (kv * dim)) + i * (kv * dim) + j).
  { intros. rewrite address_dot. cbn [v_offset v_stride]. rewrite !default_strides_cons. cbn [dot]. unfold product. cbn [fold_right]. ring. }
  split; [|split].
  - constructor.
    + cbn. lia.
    + reflexivity.
    + change (Forall (fun d => 0 <= d) [1; s; kv * dim]). repeat constructor; nia.
    + cbn [x_shape x_view v_shape x_buf]. intros idx Hi. change (in_shape [1; s; kv * dim] idx) in Hi.
      assert (L := in_shape_length _ _ Hi). destruct idx as [|a [|i [|j [|? ?]]]]; cbn in L; try lia.
      apply in_shape_cons in Hi as [I1 Hi]. apply in_shape_cons in Hi as [I2 Hi]. apply in_shape_cons in Hi as [I3 _].
      rewrite Ha, Hb. replace a with 0 by lia. assert ((cnt + i) * (kv * dim) + j < (cnt + i + 1) * (kv * dim)) by nia. nia.
  - apply row_major_default. reflexivity.
  - intros i h d. rewrite Ha, <- fa2_view_is, fa2_address. ring.
Qed.
End FA2.
