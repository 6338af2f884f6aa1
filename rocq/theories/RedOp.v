(** Proofs about reductions, part 2: the operators. *)
From Verif Require Import Base DTypeModel ParamModel ParamSpec ParamProofs TensorModel TensorSpec TensorProofs TensorSplit
  OpsModel OpsSpec OpsProofs OpsIndex OpsMask OpsSort OpsSum RedModel RedSpec.
Local Open Scope Z_scope.

(** Wherever the values are read, the kernel returns a related result. *)
Definition good_run {A} (run : buf A -> Z -> Z -> Z -> res A) (rel : list A -> A -> Prop) (b : buf A) (vals : list A) : Prop :=
  forall p stride, (forall j, 0 <= j < zlen vals -> load b (p + j * stride) = ROk (nth_error vals (Z.to_nat j))) ->
  exists r, run b p stride (zlen vals) = ROk r /\ rel vals r.

(** Reducing along dimension d. *)
Theorem reduce_correct {A} (run : buf A -> Z -> Z -> Z -> res A) rel (x : tns A) dim d keep :
  tensor_ok x -> contiguous x -> dim <> all_dims -> names_dim (length (x_shape x)) dim d ->
  (forall idx, in_shape (x_shape x) idx -> elem x idx <> None) ->
  (keep = true \/ (2 <= length (x_shape x))%nat) ->
  (forall idx vals, in_shape (reduced_shape (x_shape x) d keep) idx -> lane_of x d keep idx = map Some vals -> good_run run rel (x_buf x) vals) ->
  exists out, reduce_op (Some run) x dim keep = ROk out /\ reduces_along rel x d keep out.
Proof.
  intros Ox Cx Hnall [Hd Hdim] Hw Hkeep Hrun. set (oshape := reduced_shape (x_shape x) d keep) in *. unfold reduce_op.
  set (sh := x_shape x) in *. set (n := nth d sh 0) in *. set (pre := firstn d sh) in *. set (post := skipn (S d) sh) in *.
  assert (EN : norm_dim (zlen sh) dim = Z.of_nat d) by (unfold norm_dim, zlen; destruct (dim <? 0) eqn:Q; lia).
  assert (Esh : sh = pre ++ n :: post) by (apply ln_shape; auto).
  assert (Lp : length pre = d) by (apply ln_len; auto).
  destruct (ln_dims x d Ox Hd) as (D1 & Hn & D2). fold sh in D1, Hn, D2. fold pre in D1. fold n in Hn. fold post in D2.
  assert (ER : reduce_shape sh dim keep = ROk oshape).
  { unfold reduce_shape. replace (dim =? all_dims) with false by lia. cbv zeta. rewrite EN. unfold oshape, reduced_shape. fold sh. destruct keep.
    - unfold vset. replace ((0 <=? Z.of_nat d) && (Z.of_nat d <? zlen sh)) with true by (unfold zlen; lia). rewrite Nat2Z.id. reflexivity.
    - rewrite drop_dim by auto. reflexivity. }
  cbv zeta. rewrite ER. cbn [rbind].
  assert (Lsh : length sh = (length pre + S (length post))%nat) by (rewrite Esh at 1; rewrite app_length; reflexivity).
  assert (Eos : oshape = pre ++ (if keep then [1] else []) ++ post).
  { unfold oshape, reduced_shape. fold sh. destruct keep; [rewrite Esh; rewrite with_coord_app by auto; reflexivity|reflexivity]. }
  assert (Rk := ok_rank _ Ox). fold sh in Rk.
  assert (Ros : (1 <= length oshape <= 16)%nat) by (rewrite Eos, !app_length; destruct keep; cbn [length]; destruct Hkeep as [Hk|Hk]; try discriminate Hk; lia).
  assert (Hos : Forall (fun d => 0 <= d) oshape) by (rewrite Eos; repeat (apply Forall_app; split); auto; destruct keep; repeat constructor; lia).
  rewrite fresh_ok by auto. cbn [rbind x_buf x_view]. replace (dim =? all_dims) with false by lia. rewrite EN.
  rewrite (vget_nth sh _ 0) by (unfold zlen; lia). rewrite Nat2Z.id. fold n pre post. cbn [rbind].
  rewrite !numel_product. set (O := product pre). set (I := product post).
  assert (EP : product oshape = O * I) by (rewrite Eos, !product_app; destruct keep; rewrite ?product_cons; change (product []) with 1; fold O I; ring).
  set (F := fun idx => match run (x_buf x) (x_offset x + (ravel pre (firstn d idx) * n * I + ravel post (skipn (if keep then S d else d) idx))) I n with ROk v => Some v | _ => None end).
  set (ins := fun q : list Z => (if keep then [0] else []) ++ q).
  assert (IP : forall p q, in_shape pre p -> in_shape post q -> in_shape oshape (p ++ ins q) /\ ravel oshape (p ++ ins q) = ravel pre p * I + ravel post q /\
     firstn d (p ++ ins q) = p /\ skipn (if keep then S d else d) (p ++ ins q) = q).
  { intros p q Hp Hq. assert (Lpp : length p = d) by (rewrite (in_shape_length _ _ Hp); auto). rewrite Eos. unfold ins. destruct keep; cbn [app].
    - split; [apply in_shape_app; [lia|]; split; auto; apply in_shape_cons; split; auto; lia|].
      split; [rewrite ravel_app by lia; cbn [ravel]; rewrite product_cons; fold I; ring|].
      split; [apply firstn_mid; auto|apply skipn_mid; auto].
    - split; [apply in_shape_app; [lia|]; auto|]. split; [rewrite ravel_app by lia; reflexivity|].
      split; [apply firstn_mid; auto|apply skipn_mid0; auto]. }
  assert (LN : forall p q, in_shape pre p -> in_shape post q -> exists vals, along x d (p ++ 0 :: q) = map Some vals /\
    exists r, run (x_buf x) (x_offset x + (ravel pre p * n * I + ravel post q)) I n = ROk r /\ rel vals r).
  { intros p q Hp Hq. destruct (ln_lane x d Ox Cx Hd p q Hp Hq Hw) as (vals & V1 & V2 & V3 & V4). exists vals. split; auto.
    fold sh in V2. fold n in V2. destruct (IP p q Hp Hq) as (W1 & _).
    cut (exists r, run (x_buf x) (x_offset x + (ravel pre p * n * I + ravel post q)) I (zlen vals) = ROk r /\ rel vals r); [rewrite V2; auto|].
    apply (Hrun (p ++ ins q) vals W1).
    { assert (Lpp : length p = d) by (rewrite (in_shape_length _ _ Hp); auto). unfold lane_of. rewrite <- V1. f_equal. unfold ins. destruct keep; [reflexivity|]. cbn [app]. rewrite firstn_mid, skipn_mid0 by auto. reflexivity. }
    intros j Hj. fold sh in V4. fold n in V4. fold pre in V4. fold post in V4. fold I in V4.
    rewrite Z.add_assoc. apply V4. lia. }
  set (body := fun u v (o : buf A) =>
      do s <- run (x_buf x) (x_offset x + (u * n * I + v)) I n;
      store o (u * I + v) (Some s)).
  destruct (good_loop (at_pos oshape F) O (fun u p => exists v, 0 <= v < I /\ p = u * I + v)
    (fun u o => zloop I (body u) o) (mkBuf (product oshape) (fun _ => None)) (product oshape) eq_refl) as (o & E & G).
  { intros u b Hu Hb.
    destruct (good_loop (at_pos oshape F) I (fun v => eq (u * I + v)) (body u) b (product oshape) Hb) as (b1 & E1 & G1).
    { intros v b1 Hv Hb1. unfold body.
      destruct (unravel_spec pre u D1 Hu) as [A1 A2]. destruct (unravel_spec post v D2 Hv) as [B1 B2].
      set (p := unravel pre u) in *. set (q := unravel post v) in *.
      destruct (LN p q A1 B1) as (vals & V1 & r & V2 & V3). destruct (IP p q A1 B1) as (W1 & W2 & W3 & W4). rewrite A2, B2 in V2, W2.
      rewrite V2. cbn [rbind]. apply good_store; [rewrite Hb1, EP; nia|].
      rewrite <- W2, at_pos_ravel by auto. unfold F. rewrite W3, W4, A2, B2, V2. reflexivity. }
    exists b1. split; auto. eapply good_weaken; [|exact G1]. intros p (v & Hv & ->). exists v. auto. }
  unfold body in E. rewrite E. cbn [rbind]. eexists. split; [reflexivity|].
  destruct (produces_good oshape F _ o Ros Hos G) as (P1 & P2 & P3 & P4).
  { intros p Hp. rewrite EP in Hp. assert (HI : 0 <= I) by (apply product_nonneg; auto). assert (HI' : 0 < I) by (destruct (Z.eq_dec I 0) as [e0|]; [rewrite e0 in Hp; lia|lia]).
    exists (p / I). assert (DM := Z_div_mod_eq_full p I). assert (MB := Z.mod_pos_bound p I HI').
    split; [split; [apply Z.div_pos; lia|apply Z.div_lt_upper_bound; [lia|rewrite Z.mul_comm; lia]]|]. exists (p mod I). split; auto. lia. }
  split; [exact P1|]. split; [exact P2|]. split; [exact P3|].
  unfold x_shape at 1. cbn [x_view v_shape].
  intros idx Hidx. assert (Hidx0 := Hidx). rewrite Eos in Hidx. destruct (in_shape_app_inv _ _ _ Hidx) as (I1 & I2 & EI).
  remember (firstn (length pre) idx) as p. remember (skipn (length pre) idx) as cq. clear Heqp Heqcq.
  assert (Lpp : length p = d) by (rewrite (in_shape_length _ _ I1); auto).
  assert (EQ : exists q, in_shape post q /\ idx = p ++ ins q).
  { unfold ins. destruct keep; cbn [app] in I2 |- *; [|exists cq; auto]. destruct cq as [|c q]; [inversion I2|].
    apply in_shape_cons in I2 as [Hc I2]. exists q. assert (c = 0) as -> by lia. auto. }
  destruct EQ as (q & Hq & Eidx). destruct (LN p q I1 Hq) as (vals & V1 & r & V2 & V3). destruct (IP p q I1 Hq) as (W1 & W2 & W3 & W4).
  exists vals, r. split; [|split; [|exact V3]].
  - unfold lane_of. rewrite <- V1. f_equal. rewrite Eidx. destruct keep; [reflexivity|]. cbn [ins app]. rewrite firstn_mid, skipn_mid0 by auto. reflexivity.
  - rewrite P4 by auto. unfold F. rewrite Eidx, W3, W4, V2. reflexivity.
Qed.

(** Reducing everything. *)
Theorem reduce_all_correct {A} (run : buf A -> Z -> Z -> Z -> res A) rel (x : tns A) keep :
  tensor_ok x -> contiguous x ->
  (forall idx, in_shape (x_shape x) idx -> elem x idx <> None) ->
  (forall vals, contents x = map Some vals -> good_run run rel (x_buf x) vals) ->
  exists out, reduce_op (Some run) x all_dims keep = ROk out /\ reduces_all rel x keep out.
Proof.
  intros Ox Cx Hw Hrun. unfold reduce_op. set (sh := x_shape x) in *. unfold reduce_shape. rewrite Z.eqb_refl. cbn [rbind].
  set (os := if keep then map (fun _ => 1) sh else [1]).
  assert (Eos : os = repeat 1 (length os) /\ (1 <= length os <= 16)%nat).
  { assert (R := ok_rank _ Ox). fold sh in R. unfold os. destruct keep; [|cbn; split; [reflexivity|lia]]. rewrite map_length. split; auto.
    clear. induction sh as [|y l IH]; [reflexivity|]. cbn [map length repeat]. f_equal. exact IH. }
  destruct Eos as [Eos Ros].
  assert (Pos : product os = 1) by (rewrite Eos; apply product_ones).
  assert (Hos : Forall (fun d => 0 <= d) os) by (rewrite Eos; apply Forall_forall; intros y Hy; apply repeat_spec in Hy; lia).
  rewrite fresh_ok by auto. cbn [rbind x_buf x_view].
  destruct (map_some_list (contents x)) as [vals EV].
  { intros o Ho. unfold contents in Ho. apply in_map_iff in Ho as (idx & <- & Hi). apply Hw. apply in_indices. exact Hi. }
  assert (EC := contents_contiguous x (ok_dims _ Ox) Cx). fold sh in EC. rewrite EV in EC.
  assert (PN : 0 <= product sh) by (apply product_nonneg; apply Ox).
  assert (LV : zlen vals = product sh) by (unfold zlen; rewrite <- (map_length Some vals), EC, map_length, seq_length; lia).
  assert (RS : exists r, run (x_buf x) (x_offset x) 1 (zlen vals) = ROk r /\ rel vals r).
  { apply (Hrun vals EV). intros j Hj. rewrite Z.mul_1_r.
    rewrite load_ok by (apply contiguous_inside; auto; fold sh; lia). f_equal.
    assert (Q : nth_error (map Some vals) (Z.to_nat j) = Some (b_at (x_buf x) (x_offset x + j))).
    { rewrite EC, nth_error_map, (nth_error_nth' _ 0%nat) by (rewrite seq_length; lia). rewrite seq_nth by lia. cbn [option_map Nat.add].
      rewrite Z2Nat.id by lia. reflexivity. }
    rewrite nth_error_map in Q. destruct (nth_error vals (Z.to_nat j)); cbn [option_map] in Q; congruence. }
  rewrite numel_product. rewrite LV in RS. destruct RS as (r & RS & RR). rewrite RS. cbn [rbind].
  unfold store. cbn [b_len]. rewrite Pos. cbn [Z.leb Z.ltb Z.compare andb rbind].
  eexists. split; [reflexivity|].
  set (o := mkBuf 1 _). destruct (owner_ok os o Ros Hos) as [O1 O2]; [rewrite Pos; reflexivity|].
  split; [reflexivity|]. split; [exact O1|]. split; [exact O2|]. exists vals, r. split; [exact EV|]. split; [|exact RR].
  rewrite contents_contiguous; [|exact Hos|apply O2]. unfold x_shape, x_offset. cbn [x_view x_buf v_shape v_offset]. rewrite Pos. reflexivity.
Qed.
