(** The patches of an image. *)
From Verif Require Import Base DTypeModel ParamModel ParamSpec TensorModel TensorSpec TensorProofs TensorSplit TensorViews OpsModel OpsSpec OpsProofs.
From Verif Require Import PropertiesTensor PropertiesOps VlSpec VlImgModel VlProofs VlGrid.
Local Open Scope Z_scope.

Lemma contents_nth : forall {A} (t : tns A) idx, tensor_ok t -> in_shape (x_shape t) idx ->
  nth_error (contents t) (Z.to_nat (ravel (x_shape t) idx)) = Some (elem t idx).
Proof.
  intros A t idx Hok Hi. unfold contents. rewrite indices_unravel by apply Hok. assert (B := ravel_bounds _ _ Hi).
  rewrite map_map. rewrite nth_error_map_seq by lia. cbn [Nat.add]. rewrite Z2Nat.id by lia. rewrite unravel_ravel by auto. reflexivity.
Qed.
(** A view shows the element with the same row-major number. *)
Lemma view_elem : forall {A} (t t' : tns A) wanted i i', tensor_ok t -> tensor_ok t' -> to_view t wanted = ROk t' ->
  in_shape (x_shape t) i -> in_shape (x_shape t') i' -> ravel (x_shape t) i = ravel (x_shape t') i' -> elem t' i' = elem t i.
Proof.
  intros A t t' wanted i i' H H' E Hi Hi' R. destruct (to_view_correct t t' wanted H E) as (_ & _ & C & _).
  assert (X := contents_nth t i H Hi). assert (Y := contents_nth t' i' H' Hi'). rewrite C, <- R in Y. rewrite X in Y. injection Y as Y. auto.
Qed.
(** A view of a contiguous tensor. *)
Lemma view_ok : forall {A} (t : tns A) shape, tensor_ok t -> contiguous t -> (1 <= length shape <= 16)%nat ->
  Forall (fun d => 0 <= d) shape -> product shape = product (x_shape t) ->
  exists t', to_view t shape = ROk t' /\ x_shape t' = shape /\ tensor_ok t' /\ contiguous t' /\
    forall i i', in_shape (x_shape t) i -> in_shape shape i' -> ravel (x_shape t) i = ravel shape i' -> elem t' i' = elem t i.
Proof.
  intros A t shape Hok Hc Hl Hd Hp. assert (Ic : is_contiguous (x_view t) = true) by (apply is_contiguous_spec; [apply Hok|exact Hc]).
  destruct (to_view_accepts t shape Hok Ic ltac:(lia) Hd Hp) as (t' & E & S). exists t'. split; [exact E|]. split; [exact S|].
  destruct (to_view_correct t t' shape Hok E) as (_ & _ & _ & L & D & B & C).
  assert (Ok' : tensor_ok t') by (constructor; auto; rewrite S; lia).
  split; [exact Ok'|]. split; [apply C; exact Ic|]. intros i i' Hi Hi' R. apply (view_elem t t' shape i i'); auto; rewrite S; auto.
Qed.

Section Img.
Context {A : Type}.
Variables (conv : Z -> A) (mul sub div : A -> A -> A) (rescale : A) (mean std : Z -> A) (N : Z).

(** A tensor of rank 3 with a given element everywhere. *)
Definition shows3 (t : tns A) (d0 d1 d2 : Z) (F : Z -> Z -> Z -> option A) : Prop :=
  x_shape t = [d0; d1; d2] /\ tensor_ok t /\ owns_storage t /\
  forall i j k, 0 <= i < d0 -> 0 <= j < d1 -> 0 <= k < d2 -> elem t [i; j; k] = F i j k.

Lemma in3 : forall d0 d1 d2 i j k, 0 <= i < d0 -> 0 <= j < d1 -> 0 <= k < d2 -> in_shape [d0; d1; d2] [i; j; k].
Proof. clear conv mul sub div rescale mean std N. intros. unfold in_shape. constructor; [assumption|]. constructor; [assumption|]. constructor; [assumption|constructor]. Qed.
Lemma of3 : forall d0 d1 d2 idx, in_shape [d0; d1; d2] idx -> exists i j k, idx = [i; j; k] /\ 0 <= i < d0 /\ 0 <= j < d1 /\ 0 <= k < d2.
Proof.
  clear conv mul sub div rescale mean std N. intros d0 d1 d2 idx H. assert (L := in_shape_length _ _ H). unfold in_shape in H. destruct idx as [|i [|j [|k [|]]]]; try discriminate L.
  inversion H as [|? ? ? ? H1 T1]; subst. inversion T1 as [|? ? ? ? H2 T2]; subst. inversion T2 as [|? ? ? ? H3 T3]; subst. exists i, j, k. auto.
Qed.

Definition byte (bytes : list Z) (i : Z) : Z := nth (Z.to_nat i) bytes 0.

Lemma image_tensor_ok : forall bytes h w, 0 <= h -> 0 <= w -> zlen bytes = h * w * 3 ->
  exists t, image_tensor conv bytes h w 3 = ROk t /\ shows3 t h w 3 (fun y x c => Some (conv (byte bytes ((y * w + x) * 3 + c)))).
Proof.
  clear mul sub div rescale mean std N. intros bytes h w Hh Hw Hl. unfold image_tensor. cbn [Z.eqb Pos.eqb negb]. rewrite fresh_ok by (cbn; lia). cbn [rbind x_buf x_view].
  set (n := numel [h; w; 3]). assert (En : n = h * w * 3) by (unfold n; rewrite numel_product; cbn; lia).
  set (b0 := mkBuf (product [h; w; 3]) (fun _ => @None A)).
  destruct (zloop_inv (fun i b => b_len b = product [h; w; 3] /\ forall j, 0 <= j < i -> b_at b j = Some (conv (byte bytes j))) n
              (fun i b => do x <- vget bytes i; store b i (Some (conv x))) b0) as (b & E & Lb & Hb).
  - rewrite En. apply Z.mul_nonneg_nonneg; [apply Z.mul_nonneg_nonneg; auto|lia].
  - split; [reflexivity|]. intros j Hj. lia.
  - intros i b Hi [Lb Hb]. rewrite (vget_ok bytes i 0) by lia. cbn [rbind]. unfold store.
    assert (Pn : product [h; w; 3] = n) by (rewrite En; cbn; lia). rewrite Lb, Pn. replace ((0 <=? i) && (i <? n)) with true by lia.
    eexists. split; [reflexivity|]. cbn [b_len b_at]. split; [reflexivity|]. intros j Hj. destruct (Z.eqb_spec j i) as [->|]; [reflexivity|]. apply Hb. lia.
  - rewrite E. cbn [rbind]. eexists. split; [reflexivity|].
    destruct (owner_ok [h; w; 3] b ltac:(cbn; lia) ltac:(repeat (constructor; [lia|]); constructor) Lb) as [O1 O2].
    split; [reflexivity|]. split; [exact O1|]. split; [exact O2|]. intros y x c Hy Hx Hc. rewrite owner_elem by reflexivity. cbn [ravel]. 
    rewrite Hb.
    + f_equal. f_equal. f_equal. cbn. lia.
    + assert (B := ravel_bounds _ _ (in3 h w 3 y x c Hy Hx Hc)). cbn [ravel] in B. assert (product [h; w; 3] = n) by (rewrite En; cbn; lia). lia.
Qed.

Lemma mul_scalar_ok : forall t x d0 d1 d2 F, 0 < N -> 0 <= d0 -> 0 <= d1 -> 0 <= d2 -> shows3 t d0 d1 d2 F ->
  exists t', mul_scalar mul N t x = ROk t' /\ shows3 t' d0 d1 d2 (fun i j k => option_map (fun v => mul v x) (F i j k)).
Proof.
  clear conv sub div rescale mean std. intros t x d0 d1 d2 F HN H0 H1 H2 (S & Ok & Ow & El). unfold mul_scalar. rewrite fresh_ok by (cbn; lia). cbn [rbind].
  set (r0 := mkTns (mkV [1] (default_strides [1]) 0) (mkBuf (product [1]) (fun _ => @None A))).
  destruct (owner_ok [1] (mkBuf (product [1]) (fun _ => @None A)) ltac:(cbn; lia) ltac:(repeat (constructor; [lia|]); constructor) eq_refl) as [R1 R2].
  destruct (C14_write_one_element A r0 [0] x R1 R2 ltac:(constructor; [cbn; lia|constructor])) as (r & E & V & Rok & Ld & _). rewrite E. cbn [rbind].
  assert (Sr : x_shape r = [1]) by (unfold x_shape; rewrite V; reflexivity).
  assert (Cr : contiguous r). { unfold contiguous, x_shape, x_stride. rewrite V. apply R2. }
  rewrite at_load_ok in Ld; [|exact Rok|rewrite Sr; unfold in_shape; constructor; [lia|constructor]]. injection Ld as Er.
  destruct (C47_elementwise_partial A EwFloat32 mul N t r [d0; d1; d2] HN Ok Rok (os_layout _ Ow) Cr) as (out & Eo & So & Oo & Wo & Vo).
  - rewrite S, Sr. split; [|split].
    + intros s [<-|[<-|[]]]; cbn; lia.
    + exists [d0; d1; d2]. split; [left; reflexivity|reflexivity].
    + intros k Hk. cbn [length] in Hk. split.
      * intros s [<-|[<-|[]]]; [right; reflexivity|left]. unfold extent_from_right. cbn [rev app]. destruct k as [|[|k]]; reflexivity.
      * exists [d0; d1; d2]. split; [left; reflexivity|reflexivity].
  - right. right. rewrite Sr. intro k. unfold extent_from_right. cbn [rev app]. destruct k as [|[|k]]; reflexivity.
  - exists out. split; [exact Eo|]. split; [exact So|]. split; [exact Oo|]. split; [exact Wo|]. intros i j k Hi Hj Hk.
    rewrite (Vo [i; j; k]) by (apply in3; auto). rewrite S, Sr. unfold broadcast_index. cbn [length Nat.sub skipn combine map fst snd].
    replace (if d0 =? 1 then 0 else i) with i by (destruct (d0 =? 1) eqn:Q; lia). replace (if d1 =? 1 then 0 else j) with j by (destruct (d1 =? 1) eqn:Q; lia).
    replace (if d2 =? 1 then 0 else k) with k by (destruct (d2 =? 1) eqn:Q; lia). rewrite El by auto. cbn [Z.eqb Pos.eqb]. rewrite Er.
    destruct (F i j k); reflexivity.
Qed.

Lemma at_store_ok : forall (t : tns A) idx v, tensor_ok t -> owns_storage t -> in_shape (x_shape t) idx ->
  exists t', at_store t idx v = ROk t' /\ x_shape t' = x_shape t /\ tensor_ok t' /\ owns_storage t' /\ elem t' idx = v /\
    forall other, in_shape (x_shape t) other -> other <> idx -> elem t' other = elem t other.
Proof.
  clear conv mul sub div rescale mean std N. intros t idx v Hok Hw Hi. assert (O := ok_inside _ Hok _ Hi). unfold at_store, offsetted, zlen.
  assert (Li := in_shape_length _ _ Hi). unfold x_shape in Li. rewrite Li, Z.eqb_refl. cbn [rbind].
  rewrite <- address_dot. unfold store. replace ((0 <=? _) && _) with true by lia. cbn [rbind].
  eexists. split; [reflexivity|]. split; [reflexivity|]. split; [destruct Hok; constructor; auto|]. split; [destruct Hw; constructor; auto|].
  unfold elem. cbn [x_buf x_view b_at]. split; [rewrite Z.eqb_refl; reflexivity|]. intros other Hoi Hne.
  destruct (Z.eqb_spec (address (x_view t) other) (address (x_view t) idx)) as [E|]; [|reflexivity].
  exfalso. apply Hne. assert (Hc : contiguous t) by apply Hw. rewrite !contiguous_address in E by (auto; apply in_shape_length; auto).
  apply (ravel_inj (x_shape t)); auto. lia.
Qed.

Lemma normalize_ok : forall t H W F, 0 <= H -> 0 <= W -> shows3 t 3 H W F ->
  exists t', normalize sub div mean std t H W = ROk t' /\
    shows3 t' 3 H W (fun c y x => option_map (fun v => div (sub v (mean c)) (std c)) (F c y x)).
Proof.
  clear conv mul rescale N. intros t H W F HH HW S0. set (G := fun c y x => option_map (fun v => div (sub v (mean c)) (std c)) (F c y x)).
  assert (before : forall (a b c c0 h0 w0 : Z), {a < c0 \/ a = c0 /\ (b < h0 \/ b = h0 /\ c < w0)} + {~ (a < c0 \/ a = c0 /\ (b < h0 \/ b = h0 /\ c < w0))}).
  { intros. destruct (Z_lt_dec a c0); [left; lia|]. destruct (Z.eq_dec a c0); [|right; lia]. destruct (Z_lt_dec b h0); [left; lia|].
    destruct (Z.eq_dec b h0); [|right; lia]. destruct (Z_lt_dec c w0); [left|right]; lia. }
  set (Q := fun (c0 h0 w0 : Z) (t : tns A) => x_shape t = [3; H; W] /\ tensor_ok t /\ owns_storage t /\
    forall c y x, 0 <= c < 3 -> 0 <= y < H -> 0 <= x < W ->
      elem t [c; y; x] = if before c y x c0 h0 w0 then G c y x else F c y x).
  assert (Same : forall c0 h0 w0 c1 h1 w1 t, Q c0 h0 w0 t ->
    (forall c y x, 0 <= c < 3 -> 0 <= y < H -> 0 <= x < W -> (c < c0 \/ c = c0 /\ (y < h0 \/ y = h0 /\ x < w0)) <-> (c < c1 \/ c = c1 /\ (y < h1 \/ y = h1 /\ x < w1))) ->
    Q c1 h1 w1 t).
  { intros c0 h0 w0 c1 h1 w1 u (A1 & A2 & A3 & A4) Eq. split; [exact A1|]. split; [exact A2|]. split; [exact A3|]. intros c y x Hc Hy Hx.
    rewrite A4 by auto. specialize (Eq c y x Hc Hy Hx). destruct (before c y x c0 h0 w0), (before c y x c1 h1 w1); auto; exfalso; tauto. }
  unfold normalize.
  destruct (zloop_inv (fun c u => Q c 0 0 u) 3 (fun c t => zloop H (fun h t => zloop W (fun w t =>
    do x <- at_load t [c; h; w]; at_store t [c; h; w] (option_map (fun x => div (sub x (mean c)) (std c)) x)) t) t) t) as (t' & E & R); [lia| | |].
  - destruct S0 as (A1 & A2 & A3 & A4). split; [exact A1|]. split; [exact A2|]. split; [exact A3|]. intros c y x Hc Hy Hx. rewrite A4 by auto.
    destruct (before c y x 0 0 0); [lia|reflexivity].
  - intros c0 u Hc0 Hu. destruct (zloop_inv (fun h u => Q c0 h 0 u) H (fun h t => zloop W (fun w t =>
    do x <- at_load t [c0; h; w]; at_store t [c0; h; w] (option_map (fun x => div (sub x (mean c0)) (std c0)) x)) t) u) as (u' & E & R); [lia|exact Hu| |].
    + intros h0 v Hh0 Hv. destruct (zloop_inv (fun w u => Q c0 h0 w u) W (fun w t =>
        do x <- at_load t [c0; h0; w]; at_store t [c0; h0; w] (option_map (fun x => div (sub x (mean c0)) (std c0)) x)) v) as (v' & E & R); [lia|exact Hv| |].
      * intros w0 s Hw0 (A1 & A2 & A3 & A4). assert (I : in_shape (x_shape s) [c0; h0; w0]) by (rewrite A1; apply in3; auto).
        rewrite at_load_ok by auto. cbn [rbind]. rewrite A4 by auto. destruct (before c0 h0 w0 c0 h0 w0) as [|_]; [lia|].
        destruct (at_store_ok s [c0; h0; w0] (G c0 h0 w0) A2 A3 I) as (s' & Es & B1 & B2 & B3 & B4 & B5).
        exists s'. split; [exact Es|]. split; [congruence|]. split; [exact B2|]. split; [exact B3|]. intros c y x Hc Hy Hx.
        destruct (list_eq_dec Z.eq_dec [c; y; x] [c0; h0; w0]) as [Eq|Ne].
        -- injection Eq as -> -> ->. rewrite B4. destruct (before c0 h0 w0 c0 h0 (w0 + 1)) as [|n]; [reflexivity|lia].
        -- rewrite B5 by (auto; rewrite A1; apply in3; auto). rewrite A4 by auto.
           assert (N3 : ~ (c = c0 /\ y = h0 /\ x = w0)) by (intros (-> & -> & ->); apply Ne; reflexivity).
           destruct (before c y x c0 h0 w0), (before c y x c0 h0 (w0 + 1)); auto; lia.
      * exists v'. split; [exact E|]. apply (Same c0 h0 W); [exact R|]. intros; lia.
    + exists u'. split; [exact E|]. apply (Same c0 H 0); [exact R|]. intros; lia.
  - exists t'. split; [exact E|]. destruct R as (A1 & A2 & A3 & A4). split; [exact A1|]. split; [exact A2|]. split; [exact A3|].
    intros c y x Hc Hy Hx. rewrite A4 by auto. destruct (before c y x 3 0 0); [reflexivity|lia].
Qed.
End Img.
