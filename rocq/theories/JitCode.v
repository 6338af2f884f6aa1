(** Proofs for C69-C72, part 2: the code that the passes make from a traced module. *)
From Coq Require Import String DecimalString.
From Verif Require Import Base DTypeModel JitModel JitSpec JitProofs.
Local Open Scope Z_scope.

Definition on_body (f : list op -> list op) (g : string * list op) : string * list op := (fst g, f (snd g)).
Lemma on_body_names : forall f gs, map fst (map (on_body f) gs) = map fst gs.
Proof. intros. rewrite map_map. reflexivity. Qed.
Lemma assoc_on_body : forall f gs n, assoc (map (on_body f) gs) n = option_map f (assoc gs n).
Proof.
  intros f gs n. unfold assoc. induction gs as [|[m b] gs IH]; cbn; [reflexivity|].
  destruct (String.eqb m n); [reflexivity|exact IH].
Qed.

(* ---------------- canonicalization ---------------- *)
Definition all_names (gs : list (string * list op)) : list string := flat_map (fun g => flat_map linalg_name (snd g)) gs.
Lemma extract_symbols_shape : forall i main ins outs gs, free_names gs ->
  extract_symbols (shape i main ins outs gs []) = shape i main ins outs gs (table (fold_left add_name (all_names gs) [])).
Proof.
  intros i main ins outs gs FN. unfold extract_symbols, shape. cbn [flat_map reserved String.eqb Ascii.eqb Bool.eqb orb app linalg_name].
  rewrite app_nil_r.
  assert (E1 : flat_map (fun t => match t with SubGraph n b => if reserved n then [] else flat_map linalg_name b | _ => [] end) (map graph gs) = all_names gs).
  { clear - FN. unfold all_names. induction gs as [|[n b] gs IH]; cbn; [reflexivity|].
    rewrite (FN n (or_introl eq_refl)), IH; [reflexivity|]. intros m Hm; apply FN; right; exact Hm. }
  assert (E2 : flat_map (fun t => match t with Leaf o => linalg_name o | _ => [] end) (map graph gs) = []).
  { clear. induction gs as [|[n b] gs IH]; cbn; auto. }
  rewrite E1, E2. rewrite app_nil_r. unfold table. reflexivity.
Qed.
Definition no_comments (b : list op) : list op := filter (fun o => negb (is_comment o)) b.
Lemma eliminate_shape : forall ps main ins outs gs t,
  eliminate_dbg (shape (map TensorRegister ps) main ins outs gs (table t)) =
  shape (map TensorRegister ps) main ins outs (map (on_body no_comments) gs) (table t).
Proof.
  intros. unfold eliminate_dbg, shape. cbn [map filter].
  rewrite map_app, filter_app.
  assert (F1 : forall A (f : A -> op) l, (forall x, is_comment (f x) = false) -> filter (fun o => negb (is_comment o)) (map f l) = map f l).
  { intros A f l H. induction l as [|x l IH]; cbn; [reflexivity|]. rewrite H, IH. reflexivity. }
  rewrite F1 by reflexivity.
  do 3 f_equal. f_equal.
  - clear. induction gs as [|[n b] gs IH]; cbn; [reflexivity|]. rewrite IH. reflexivity.
  - unfold table. cbn [map filter]. rewrite F1 by reflexivity. reflexivity.
Qed.
Lemma layout_no_comments : forall G ops fp es, layout G ops fp es -> forall G',
  (forall n, In n fp -> G' n = option_map no_comments (G n)) -> layout G' (no_comments ops) fp es.
Proof.
  induction 1; intros G' E; unfold no_comments in *; cbn; try (econstructor; eauto; fail); auto.
  econstructor.
  - rewrite E by (left; reflexivity). rewrite H. cbn. rewrite filter_app. reflexivity.
  - apply IHlayout1. intros; apply E. right. apply in_or_app; auto.
  - apply IHlayout2. intros; apply E. right. apply in_or_app; auto.
Qed.

(** the kernels in the graphs *)
Definition has_kernel (k : Z) (n : string) (ins outs : list Z) (gs : list (string * list op)) : Prop :=
  exists g b dev, In (g, b) gs /\ In (Linalg k n dev ins outs) b.
Lemma layout_kernel : forall gs ops fp es, layout (assoc gs) ops fp es -> forall k n ins outs, In (EK k n ins outs) es ->
  (exists dev, In (Linalg k n dev ins outs) ops) \/ has_kernel k n ins outs gs.
Proof.
  induction 1; intros k0 n0 i0 o0 Hi.
  - destruct Hi.
  - destruct (IHlayout _ _ _ _ Hi) as [[d Hd]|]; [left; exists d; right; exact Hd|right; assumption].
  - destruct Hi as [E|Hi]; [inversion E; subst; left; exists dev; left; reflexivity|].
    destruct (IHlayout _ _ _ _ Hi) as [[d Hd]|]; [left; exists d; right; exact Hd|right; assumption].
  - destruct Hi as [E|Hi]; [discriminate|].
    destruct (IHlayout _ _ _ _ Hi) as [[d Hd]|]; [left; exists d; right; exact Hd|right; assumption].
  - apply in_app_or in Hi as [Hi|Hi].
    + destruct (IHlayout1 _ _ _ _ Hi) as [[d Hd]|]; [right|right; assumption].
      exists callee, (b ++ [Return]), d. split; [apply assoc_in; assumption|apply in_or_app; auto].
    + destruct (IHlayout2 _ _ _ _ Hi) as [[d Hd]|]; [left; exists d; right; exact Hd|right; assumption].
Qed.
(** every operator of a graph in the footprint is executed *)
Lemma layout_complete : forall gs ops fp es, layout (assoc gs) ops fp es -> NoDup (map fst gs) ->
  (forall o, In o ops -> match o with Linalg k n _ ins outs => In (EK k n ins outs) es | TensorFree u => In (EF u) es
     | CallGraph c _ _ => In c fp | Comment => True | _ => False end) /\
  (forall g b o, In g fp -> In (g, b) gs -> In o b ->
     match o with Linalg k n _ ins outs => In (EK k n ins outs) es | TensorFree u => In (EF u) es
     | CallGraph c _ _ => In c fp | Comment | Return => True | _ => False end).
Proof.
  intros gs ops fp es L ND. induction L.
  - split; [intros o []|intros g b o []].
  - destruct IHL as [A B]. split; [|exact B]. intros o [<-|Hi]; [exact I|exact (A o Hi)].
  - destruct IHL as [A B]. split.
    + intros o [<-|Hi]; [left; reflexivity|]. specialize (A o Hi). destruct o; auto; try (right; assumption).
    + intros g b o Hg Hb Ho. specialize (B g b o Hg Hb Ho). destruct o; auto; try (right; assumption).
  - destruct IHL as [A B]. split.
    + intros o [<-|Hi]; [left; reflexivity|]. specialize (A o Hi). destruct o; auto; try (right; assumption).
    + intros g b o Hg Hb Ho. specialize (B g b o Hg Hb Ho). destruct o; auto; try (right; assumption).
  - destruct IHL1 as [A1 B1], IHL2 as [A2 B2].
    assert (U : forall g b1 b2, In (g, b1) gs -> assoc gs g = Some b2 -> b1 = b2).
    { clear - ND. intros g b1 b2 H1 H2. apply assoc_in in H2. revert ND H1 H2. induction gs as [|[n x] r IH]; cbn; intros ND H1 H2; [destruct H1|].
      inversion ND as [|y l Hni ND' EE]; subst.
      destruct H1 as [E1|H1], H2 as [E2|H2].
      - congruence.
      - inversion E1; subst. exfalso; apply Hni. apply in_map_iff. exists (g, b2); auto.
      - inversion E2; subst. exfalso; apply Hni. apply in_map_iff. exists (g, b1); auto.
      - apply IH; assumption. }
    split.
    + intros o [<-|Hi]; [left; reflexivity|]. specialize (A2 o Hi).
      destruct o; auto; try (apply in_or_app; right; assumption). right. apply in_or_app; right; assumption.
    + intros g b0 o Hg Hb Ho. destruct Hg as [<-|Hg].
      * rewrite (U _ _ _ Hb H) in Ho. apply in_app_or in Ho as [Ho|[<-|[]]]; [|exact I].
        specialize (A1 o Ho). destruct o; auto; try (apply in_or_app; left; assumption); try contradiction.
        right; apply in_or_app; left; assumption.
      * apply in_app_or in Hg as [Hg|Hg].
        -- specialize (B1 g b0 o Hg Hb Ho). destruct o; auto; try (apply in_or_app; left; assumption). right; apply in_or_app; auto.
        -- specialize (B2 g b0 o Hg Hb Ho). destruct o; auto; try (apply in_or_app; right; assumption). right; apply in_or_app; auto.
Qed.

Lemma add_names_in : forall l acc n, In n acc \/ In n l -> In n (fold_left add_name l acc).
Proof.
  induction l as [|m l IH]; intros acc n H; cbn; [destruct H as [H|[]]; exact H|].
  apply IH. unfold add_name. destruct H as [H|[->|H]].
  - left. destruct (existsb (String.eqb m) acc); [exact H|apply in_or_app; auto].
  - left. destruct (existsb (String.eqb n) acc) eqn:E; [|apply in_or_app; right; left; reflexivity].
    apply existsb_exists in E as (x & Hx & Ex). apply String.eqb_eq in Ex. subst; exact Hx.
  - auto.
Qed.
Lemma add_uuids_in : forall l acc n, In n acc \/ In n l -> In n (fold_left add_uuid l acc).
Proof.
  induction l as [|m l IH]; intros acc n H; cbn; [destruct H as [H|[]]; exact H|].
  apply IH. unfold add_uuid. destruct H as [H|[->|H]].
  - left. destruct (existsb (Z.eqb m) acc); [exact H|apply in_or_app; auto].
  - left. destruct (existsb (Z.eqb n) acc) eqn:E; [|apply in_or_app; right; left; reflexivity].
    apply existsb_exists in E as (x & Hx & Ex). apply Z.eqb_eq in Ex. subst; exact Hx.
  - auto.
Qed.
Lemma all_names_in : forall k n ins outs gs, has_kernel k n ins outs gs -> n <> ""%string -> In n (all_names gs).
Proof.
  intros k n ins outs gs (g & b & dev & Hg & Hb) Hn. unfold all_names. apply in_flat_map.
  exists (g, b). split; [exact Hg|]. cbn. apply in_flat_map. exists (Linalg k n dev ins outs). split; [exact Hb|].
  cbn. apply String.eqb_neq in Hn. rewrite Hn. left; reflexivity.
Qed.

(* ---------------- constants ---------------- *)
Definition all_tensors (gs : list (string * list op)) : list Z := flat_map (fun g => flat_map linalg_tensors (snd g)) gs.
Lemma extract_constants_shape : forall constant ps main ins outs gs t, free_names gs ->
  extract_constants constant (shape (map TensorRegister ps) main ins outs gs (table t)) =
  shape (map TensorRegister (ps ++ fold_left add_uuid (filter constant (all_tensors gs)) [])) main ins outs gs (table t).
Proof.
  intros constant ps main ins outs gs t FN. unfold extract_constants, shape.
  cbn [flat_map String.eqb Ascii.eqb Bool.eqb orb app linalg_tensors map].
  rewrite !flat_map_app.
  assert (E1 : flat_map (fun t0 => match t0 with Leaf o => linalg_tensors o | _ => [] end) (map graph gs ++ table t) = []).
  { rewrite flat_map_app. unfold table. cbn. rewrite app_nil_r. clear. induction gs as [|[n b] gs IH]; cbn; auto. }
  assert (E2 : flat_map (fun t0 => match t0 with SubGraph n b => if (String.eqb n "init" || String.eqb n "deinit")%bool then [] else flat_map linalg_tensors b | _ => [] end) (map graph gs) = all_tensors gs).
  { clear - FN. unfold all_tensors. induction gs as [|[n b] gs IH]; cbn; [reflexivity|].
    destruct (proj1 (reserved_false n) (FN n (or_introl eq_refl))) as (R1 & R2 & R3).
    apply String.eqb_neq in R1, R2. rewrite R1, R2. cbn. rewrite IH; [reflexivity|]. intros m Hm; apply FN; right; exact Hm. }
  rewrite <- !flat_map_app, E1.
  rewrite flat_map_app, E2.
  assert (E3 : flat_map (fun t0 => match t0 with SubGraph n b => if (String.eqb n "init" || String.eqb n "deinit")%bool then [] else flat_map linalg_tensors b | _ => [] end) (table t) = []).
  { unfold table. cbn. rewrite app_nil_r. clear. induction t; cbn; auto. }
  rewrite E3. rewrite app_nil_r. cbn [app].
  set (cs := map TensorRegister (fold_left add_uuid (filter constant (all_tensors gs)) [])).
  assert (E4 : map (fun t0 => match t0 with SubGraph n b => if String.eqb n "init" then SubGraph n (b ++ cs) else t0 | _ => t0 end) (map graph gs) = map graph gs).
  { clearbody cs. clear - FN. induction gs as [|[n b] gs IH]; cbn; [reflexivity|].
    destruct (proj1 (reserved_false n) (FN n (or_introl eq_refl))) as (R1 & R2 & R3).
    apply String.eqb_neq in R1. rewrite R1. f_equal. apply IH. intros m Hm; apply FN; right; exact Hm. }
  rewrite map_app, E4. unfold cs. rewrite map_app. unfold table. reflexivity.
Qed.

(* ---------------- lowering ---------------- *)
Definition lower3 (o : op) : op := lower_return (lower_free (lower_linalg o)).
Definition lower (o : op) : op := lower_call (lower3 o).
Lemma lower3_shape : forall ps main ins outs gs t,
  cf2program (tensor2program (linalg2program (shape (map TensorRegister ps) main ins outs gs (table t)))) =
  shape (map TensorRegister ps) main ins outs (map (on_body (map lower3)) gs) (table t).
Proof.
  intros. unfold cf2program, tensor2program, linalg2program, in_graphs, in_module, shape.
  cbn [map lower_linalg lower_free]. rewrite !map_app.
  assert (E : forall l, map lower_return (map lower_free (map lower_linalg l)) = map lower3 l) by (intros; rewrite !map_map; reflexivity).
  assert (F1 : forall A (f : A -> op) l, (forall x, lower3 (f x) = f x) -> map lower3 (map f l) = map f l).
  { intros A f l H. rewrite map_map. apply map_ext. exact H. }
  rewrite E, F1 by reflexivity. unfold table. cbn [map]. rewrite E, F1 by reflexivity. rewrite !map_map.
  assert (G : forall a b : list top, a = b -> forall x y z w : top, x :: y :: z :: a ++ [w] = x :: y :: z :: b ++ [w]) by (intros; subst; reflexivity).
  apply G. apply map_ext. intros [n b]. unfold graph, on_body. cbn [fst snd]. rewrite E. reflexivity.
Qed.
Definition lower_top1 (t : top) : top :=
  match t with SubGraph n b => Fragment n (Label (entry n) :: b) | Leaf o => Leaf (lower_call o) | Fragment n b => Fragment n b end.
Lemma lower_top_ok : forall m, lower_top false m = ROk (map lower_top1 m).
Proof. induction m as [|t m IH]; cbn; [reflexivity|]. rewrite IH. destruct t as [o|n [|x b]|n b]; reflexivity. Qed.
Definition in_bind (p : Z * Z) : op := Bind (fst p) (snd p) true.
Definition out_bind (p : Z * Z) : op := Bind (fst p) (snd p) false.
Definition main_code (main : string) (ins outs : list Z) : list op :=
  map in_bind (numbered 0 ins) ++ [Jump (entry main) None] ++ rev (map out_bind (numbered 0 outs)) ++ [Exit].
Definition frag_code (gs : list (string * list op)) : list op := flat_map (fun g => Label (entry (fst g)) :: map lower (snd g)) gs.

Lemma calls_shape : forall i main ins outs gs t, calls (shape i main ins outs gs (table t)) = 1%nat.
Proof.
  intros. unfold calls, shape, table. cbn [filter]. rewrite filter_app. cbn.
  assert (E : filter (fun t => match t with Leaf (CallGraph _ _ _) => true | _ => false end) (map graph gs) = []).
  { induction gs as [|[n b] gs IH]; cbn; auto. }
  rewrite E. reflexivity.
Qed.
Definition lower_top2 (t : top) : top := match t with Fragment n b => Fragment n (map lower_call b) | _ => t end.
Lemma flatten_app : forall a b, flatten_code (a ++ b) = flatten_code a ++ flatten_code b.
Proof. intros. apply flat_map_app. Qed.
Lemma flatten_leaves : forall l, Forall (fun o => is_program (lower_call o) = true) l ->
  flatten_code (map lower_top2 (map lower_top1 (map Leaf l))) = map lower_call l.
Proof. induction 1 as [|o l H H0 IH]; cbn; [reflexivity|]. rewrite H. cbn. f_equal. exact IH. Qed.
Lemma flatten_graphs : forall gs, free_names gs ->
  flatten_code (map lower_top2 (map lower_top1 (map graph (map (on_body (map lower3)) gs)))) = frag_code gs.
Proof.
  induction gs as [|[n b] gs IH]; intros FN; cbn; [reflexivity|].
  rewrite (FN n (or_introl eq_refl)). cbn. f_equal. f_equal.
  - rewrite map_map. reflexivity.
  - apply IH. intros m Hm; apply FN; right; exact Hm.
Qed.
Lemma fragment_skip : forall n ts m acc, (forall t, In t ts -> match t with Fragment k _ => k <> n | _ => True end) ->
  fold_left (fun acc t => match t with Fragment k b => if String.eqb k n then Some b else acc | _ => acc end) (ts ++ m) acc =
  fold_left (fun acc t => match t with Fragment k b => if String.eqb k n then Some b else acc | _ => acc end) m acc.
Proof.
  induction ts as [|t ts IH]; intros m acc H; cbn [app fold_left]; [reflexivity|].
  rewrite IH by (intros; apply H; right; assumption).
  specialize (H t (or_introl eq_refl)). destruct t; try reflexivity. apply String.eqb_neq in H. rewrite H. reflexivity.
Qed.
Lemma graph2program_shape : forall ps main ins outs gs t, free_names gs ->
  exists m, graph2program false (shape (map TensorRegister ps) main ins outs (map (on_body (map lower3)) gs) (table t)) =
    ROk (main_code main ins outs ++ frag_code gs, m) /\
    fragment_named m "init" = Some (Label (entry "init") :: map TensorRegister ps) /\
    fragment_named m "op_symbol_table" = Some (Label (entry "op_symbol_table") :: map LinalgRegister t).
Proof.
  intros ps main ins outs gs t FN. unfold graph2program. rewrite calls_shape. cbn [Nat.eqb negb].
  rewrite lower_top_ok. cbn [rbind].
  set (leaves := map in_bind (numbered 0 ins) ++ [CallGraph main ins outs] ++ rev (map out_bind (numbered 0 outs)) ++ [Exit]).
  assert (EB : add_binds (shape (map TensorRegister ps) main ins outs (map (on_body (map lower3)) gs) (table t)) =
     [SubGraph "init" (map TensorRegister ps); SubGraph "deinit" []] ++
     map Leaf leaves ++ map graph (map (on_body (map lower3)) gs) ++ table t).
  { assert (G : forall a b : list top, a = b -> forall x y : top, x :: y :: a = x :: y :: b) by (intros; subst; reflexivity).
    unfold leaves, shape, add_binds. cbn [flat_map app]. apply G. repeat (rewrite map_app; cbn [map]). rewrite map_rev, !map_map, <- !app_assoc. cbn [app]. rewrite <- ?app_assoc. cbn [app].
    apply (f_equal2 (@app _)); [reflexivity|]. f_equal. apply (f_equal2 (@app _)); [reflexivity|]. f_equal.
    rewrite flat_map_app. unfold table. cbn [flat_map app]. f_equal.
    clear. induction gs as [|[n b] gs IH]; cbn; [reflexivity|]. f_equal. exact IH. }
  assert (EL : map lower_call leaves = main_code main ins outs).
  { unfold leaves, main_code. rewrite !map_app, map_rev, !map_map. reflexivity. }
  assert (PL : Forall (fun o => is_program (lower_call o) = true) leaves).
  { unfold leaves. apply Forall_app; split; [|apply Forall_app; split; [|apply Forall_app; split]].
    - apply Forall_forall. intros o Ho. apply in_map_iff in Ho as (p & <- & _). reflexivity.
    - constructor; [reflexivity|constructor].
    - apply Forall_rev, Forall_forall. intros o Ho. apply in_map_iff in Ho as (p & <- & _). reflexivity.
    - constructor; [reflexivity|constructor]. }
  clearbody leaves.
  change (map (fun t0 : top => match t0 with Fragment n b => Fragment n (map lower_call b) | _ => t0 end)) with (map lower_top2).
  assert (NG : forall x, reserved x = true -> forall y, In y (map lower_top2 (map lower_top1 (map graph (map (on_body (map lower3)) gs)))) ->
     match y with Fragment k _ => k <> x | _ => True end).
  { intros x Hx y Hy. rewrite !map_map in Hy. apply in_map_iff in Hy as ([n b] & <- & Hn). cbn. intros ->.
    rewrite (FN x) in Hx; [discriminate|]. apply in_map_iff. exists (x, b); auto. }
  assert (NL : forall x y, In y (map lower_top2 (map lower_top1 (map Leaf leaves))) -> match y with Fragment k _ => k <> x | _ => True end).
  { intros x y Hy. rewrite !map_map in Hy. apply in_map_iff in Hy as (o & <- & Ho). exact I. }
  rewrite EB, !map_app. eexists. split; [|split].
  - f_equal. f_equal. rewrite !flatten_app, flatten_leaves, flatten_graphs, EL by assumption.
    unfold flatten_code, table. cbn [map lower_top1 lower_top2 flat_map reserved String.eqb Ascii.eqb Bool.eqb orb app].
    rewrite app_nil_r. reflexivity.
  - unfold fragment_named. rewrite fold_left_app. rewrite fragment_skip by apply NL. rewrite fragment_skip by (apply NG; reflexivity).
    unfold table. cbn [map lower_top1 lower_top2 fold_left String.eqb Ascii.eqb Bool.eqb]. rewrite map_map. reflexivity.
  - unfold fragment_named. rewrite fold_left_app. rewrite fragment_skip by apply NL. rewrite fragment_skip by (apply NG; reflexivity).
    unfold table. cbn [map lower_top1 lower_top2 fold_left String.eqb Ascii.eqb Bool.eqb]. rewrite map_map. reflexivity.
Qed.
Definition symbols (code : list op) (vals : list Z) (t : list string) : list op :=
  map ValueSymbol vals ++ map (fun n => KernelSymbol n (last_launch code n)) t.
Lemma flatten_symbols_ok : forall code m vals t,
  fragment_named m "init" = Some (Label (entry "init") :: map TensorRegister vals) ->
  fragment_named m "op_symbol_table" = Some (Label (entry "op_symbol_table") :: map LinalgRegister t) ->
  flatten_symbols code m = ROk (symbols code vals t).
Proof.
  intros code m vals t H1 H2. unfold flatten_symbols. rewrite H1, H2. cbn [flat_map app].
  assert (F : forall A (f : op -> list op) (g : A -> op) h l, (forall x, f (g x) = [h x]) -> flat_map f (map g l) = map h l).
  { intros A f g h l H. induction l; cbn; [reflexivity|]. rewrite H, IHl. reflexivity. }
  unfold symbols. f_equal. f_equal; apply F; reflexivity.
Qed.

(* ---------------- the whole pipeline ---------------- *)
(** [canon]: a module after the canonicalization passes *)
Record canon (names : list string) (es : list event) (main : string) (t : list string) (gs : list (string * list op)) : Prop := mkCanon {
  k_names : map fst gs = names;
  k_nodup : NoDup names;
  k_free : free_names gs;
  k_main : exists b fp, assoc gs main = Some (b ++ [Return]) /\ layout (assoc gs) b fp es /\ names = main :: fp;
  k_table : forall k n ins outs, In (EK k n ins outs) es -> n <> ""%string -> In n t }.
Definition full_code (eager : bool) main ins outs gs : list op := (if eager then [ModeConfig] else []) ++ main_code main ins outs ++ frag_code gs.

Lemma compile_from : forall constant ps main ins outs gs t eager code m0,
  free_names gs -> index_program (full_code eager main ins outs gs) = ROk code ->
  m0 = shape (map TensorRegister ps) main ins outs gs (table t) ->
  (let m := extract_constants constant m0 in
   let m := cf2program (tensor2program (linalg2program m)) in
   do cm <- graph2program false m;
   let '(code, m) := cm in
   do table <- flatten_symbols code m;
   do code <- index_program (if eager then ModeConfig :: code else code);
   ROk (mkProgram code table)) =
  ROk (mkProgram code (symbols (main_code main ins outs ++ frag_code gs)
         (ps ++ fold_left add_uuid (filter constant (all_tensors gs)) []) t)).
Proof.
  intros constant ps main ins outs gs t eager code m0 FN HI ->. cbv zeta.
  rewrite extract_constants_shape, lower3_shape by assumption.
  edestruct graph2program_shape as (m & E & H1 & H2); [exact FN|]. rewrite E. cbn [rbind].
  rewrite (flatten_symbols_ok _ _ _ _ H1 H2). cbn [rbind].
  unfold full_code in HI. destruct eager; cbn [app] in HI; rewrite HI; reflexivity.
Qed.
Lemma layout_call1 : forall G c i o fp es, layout G [CallGraph c i o] fp es ->
  exists b fp1, G c = Some (b ++ [Return]) /\ layout G b fp1 es /\ fp = c :: fp1.
Proof.
  intros G c i o fp es L. inversion L as [| | | |callee i' o' b r fp1 fp2 es1 es2 HG L1 L2 E1 E2 E3]; subst.
  inversion L2; subst. exists b, fp1. rewrite !app_nil_r. auto.
Qed.
Lemma canonical : forall uuid names params inst ins body outs,
  well_named names (Call inst ins body outs) ->
  exists gs t, canon (map names (instances (Call inst ins body outs))) (map (ek uuid) (kernels (Call inst ins body outs))) (names inst) t gs /\
    extract_symbols (trace uuid names params (Call inst ins body outs)) =
      shape (map TensorRegister params) (names inst) (ir uuid ins) (ir uuid outs) gs (table t).
Proof.
  intros uuid names params inst ins body outs [ND R].
  destruct (trace_step_ok uuid names (Call inst ins body outs) (mkNaming (fun _ => 0) names)) as (ops & gs & st & E & F & L & N & C); auto.
  assert (FN : free_names gs). { intros n Hn. apply reserved_false. apply R. rewrite <- F. exact Hn. }
  unfold trace. rewrite E.
  assert (EO : ops = [CallGraph (names inst) (ir uuid ins) (ir uuid outs)]).
  { rewrite trace_step_call in E. unfold unique_name in E. cbn [n_counter n_name Z.eqb] in E.
    match type of E with context [trace_steps uuid body ?s] => destruct (trace_steps uuid body s) as [[o g] s'] end. inversion E; reflexivity. }
  subst ops.
  exists gs, (fold_left add_name (all_names gs) []). split.
  - constructor; auto.
    + exact (layout_call1 _ _ _ _ _ _ L).
    + intros k n i o Hi Hn. apply add_names_in. right.
      destruct (layout_kernel _ _ _ _ L _ _ _ _ Hi) as [[d [Hd|[]]]|Hk]; [discriminate|]. eapply all_names_in; eassumption.
  - rewrite <- extract_symbols_shape by assumption. unfold shape. cbn [map app]. rewrite app_nil_r. reflexivity.
Qed.
Lemma canon_dbg : forall names es main t gs, canon names es main t gs -> canon names es main t (map (on_body no_comments) gs).
Proof.
  intros names es main t gs [H1 H2 H3 (b & fp & H4 & H5 & H6) H7]. constructor; auto.
  - rewrite on_body_names. exact H1.
  - intros n Hn. rewrite on_body_names in Hn. auto.
  - exists (no_comments b), fp. split; [|split; [|exact H6]].
    + rewrite assoc_on_body, H4. cbn. unfold no_comments. rewrite filter_app. reflexivity.
    + eapply layout_no_comments; [exact H5|]. intros n _. apply assoc_on_body.
Qed.
Lemma canon_memory : forall names es main t gs ps ins outs fuel, canon names es main t gs -> (List.length names <= fuel)%nat ->
  exists gs', eager_memory fuel (shape (map TensorRegister ps) main ins outs gs (table t)) =
      ROk (shape (map TensorRegister ps) main ins outs gs' (table t)) /\
    canon names (fst (free_events es (index_events es (fun _ => None)))) main t gs'.
Proof.
  intros names es main t gs ps ins outs fuel [H1 H2 H3 (b & fp & H4 & H5 & H6) H7] Hf.
  unfold eager_memory.
  assert (E : fold_left (fun acc t => match t with Leaf (CallGraph callee _ _) => Some callee | _ => acc end)
     (shape (map TensorRegister ps) main ins outs gs (table t)) None = Some main).
  { unfold shape. cbn [fold_left]. rewrite fold_left_app. unfold table. cbn [fold_left].
    clear. generalize (Some main). induction gs as [|[n x] gs IH]; intros a; cbn; auto. }
  rewrite E. rewrite H6 in H1, H2, Hf |- *. clear H6. cbn in Hf.
  assert (R : reserved main = false) by (apply H3; eapply assoc_some_in; eassumption).
  assert (ND : NoDup (map fst gs)) by (rewrite H1; exact H2).
  rewrite lookup_shape, H4 by auto. destruct fuel as [|f]; [lia|].
  inversion H2 as [|x l Hni ND' EE]; subst.
  rewrite index_tensors_S, fold_left_app.
  rewrite (index_layout _ _ _ _ _ _ _ _ _ ND H3 H5) by lia. cbn [fold_left istep rbind].
  rewrite insert_frees_S, lookup_shape, H4 by auto. rewrite fold_left_app.
  set (c := index_events es (fun _ => None)).
  destruct (frees_layout (map TensorRegister ps) main ins outs t _ _ _ _ H5 gs f c [] ND H3 ND' (fun n _ => eq_refl) ltac:(lia)) as (gs' & b' & E1 & F1 & O1 & L1).
  rewrite E1. cbn [fold_left fstep rbind fst snd app].
  assert (Hin : In main (map fst gs')) by (rewrite F1; eapply assoc_some_in; eassumption).
  rewrite set_graph_shape; [|rewrite F1; exact ND|exact Hin|exact R].
  eexists. split; [reflexivity|]. constructor.
  - rewrite put_names, F1. exact H1.
  - exact H2.
  - intros n Hn. rewrite put_names, F1 in Hn. auto.
  - exists b', fp. split; [rewrite assoc_put, String.eqb_refl by exact Hin; reflexivity|]. split; [|reflexivity].
    eapply layout_ext; [exact L1|]. intros n Hn. rewrite assoc_put by exact Hin.
    destruct (String.eqb_spec main n) as [->|]; [contradiction|reflexivity].
  - intros k n i o Hi Hn. apply (H7 k n i o); [|exact Hn].
    clear - Hi. revert Hi. generalize c. clear c. induction es as [|[k' n' i' o'|u] es IH]; cbn; intros c Hi; [destruct Hi| |].
    + destruct (fold_left count_down i' (c, [])) as [c1 fr]. specialize (IH c1). destruct (free_events es c1) as [r c2].
      cbn in Hi. destruct Hi as [Hi|Hi]; [left; exact Hi|]. right. apply IH. apply in_app_or in Hi as [Hi|Hi]; [|exact Hi].
      apply in_flat_map in Hi as (o1 & _ & Ho). destruct o1; try destruct Ho as [Ho|[]]; try discriminate; destruct Ho.
    + specialize (IH c). destruct (free_events es c) as [r c2]. cbn in Hi. destruct Hi as [Hi|Hi]; [discriminate|]. right; apply IH; exact Hi.
Qed.
