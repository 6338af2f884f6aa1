(** Proofs for C69-C72, part 1: tracing gives a tree of graphs, and what the passes do to it. *)
From Coq Require Import String DecimalString.
From Verif Require Import Base DTypeModel JitModel JitSpec.
Local Open Scope Z_scope.

(* ---------------- induction over forward passes ---------------- *)
Section StepInd.
Variable P : step -> Prop.
Hypothesis HK : forall k name dev ins outs, P (Kernel k name dev ins outs).
Hypothesis HN : P Note.
Hypothesis HC : forall inst ins body outs, Forall P body -> P (Call inst ins body outs).
Fixpoint step_ind' (s : step) : P s :=
  match s with
  | Kernel k name dev ins outs => HK k name dev ins outs
  | Note => HN
  | Call inst ins body outs =>
      HC inst ins body outs ((fix go l : Forall P l := match l with [] => Forall_nil _ | x :: r => Forall_cons x (step_ind' x) (go r) end) body)
  end.
End StepInd.

Fixpoint trace_steps (uuid : Z -> Z) (l : list step) (st : naming) : list op * list (string * list op) * naming :=
  match l with
  | [] => ([], [], st)
  | s :: r =>
      let '(o1, g1, st) := trace_step uuid s st in
      let '(o2, g2, st) := trace_steps uuid r st in
      (o1 ++ o2, g1 ++ g2, st)
  end.
Lemma trace_step_call : forall uuid inst ins body outs st,
  trace_step uuid (Call inst ins body outs) st =
  (let '(name, st) := unique_name inst st in
   let '(ops, graphs, st) := trace_steps uuid body st in
   ([CallGraph name (ir uuid ins) (ir uuid outs)], (name, ops ++ [Return]) :: graphs, st)).
Proof.
  intros. cbn [trace_step]. destruct (unique_name inst st) as [name st1].
  assert (E : forall l s,
    (fix trace_steps (l : list step) (st : naming) : list op * list (string * list op) * naming :=
           match l with
           | [] => ([], [], st)
           | s :: r =>
               let '(o1, g1, st) := trace_step uuid s st in
               let '(o2, g2, st) := trace_steps r st in
               (o1 ++ o2, g1 ++ g2, st)
           end) l s = trace_steps uuid l s).
  { induction l; intros; cbn; [reflexivity|]. destruct (trace_step uuid a s) as [[o g] s']. rewrite IHl. reflexivity. }
  rewrite E. reflexivity.
Qed.

(* ---------------- trees of graphs ---------------- *)
(** What executing a graph does, at the level of storages. *)
Inductive event := EK (k : Z) (name : string) (ins outs : list Z) | EF (u : Z).
Inductive layout (G : string -> option (list op)) : list op -> list string -> list event -> Prop :=
  | l_nil : layout G [] [] []
  | l_comment : forall r fp es, layout G r fp es -> layout G (Comment :: r) fp es
  | l_kernel : forall k name dev ins outs r fp es, layout G r fp es ->
      layout G (Linalg k name dev ins outs :: r) fp (EK k name ins outs :: es)
  | l_free : forall u r fp es, layout G r fp es -> layout G (TensorFree u :: r) fp (EF u :: es)
  | l_call : forall callee ins outs b r fp1 fp2 es1 es2,
      G callee = Some (b ++ [Return]) -> layout G b fp1 es1 -> layout G r fp2 es2 ->
      layout G (CallGraph callee ins outs :: r) (callee :: fp1 ++ fp2) (es1 ++ es2).

Lemma layout_ext : forall G G' ops fp es, layout G ops fp es -> (forall n, In n fp -> G' n = G n) -> layout G' ops fp es.
Proof.
  induction 1; intros E; try (econstructor; eauto; fail).
  econstructor.
  - rewrite E by (left; reflexivity). eassumption.
  - apply IHlayout1. intros; apply E. right. apply in_or_app; auto.
  - apply IHlayout2. intros; apply E. right. apply in_or_app; auto.
Qed.
Lemma layout_app : forall G a fpa ea, layout G a fpa ea -> forall b fpb eb, layout G b fpb eb ->
  layout G (a ++ b) (fpa ++ fpb) (ea ++ eb).
Proof.
  induction 1; intros; cbn; try (econstructor; eauto; fail); auto.
  rewrite <- !app_assoc. econstructor; eauto.
Qed.

Definition assoc {A} (gs : list (string * A)) (n : string) : option A :=
  match find (fun g => String.eqb (fst g) n) gs with Some g => Some (snd g) | None => None end.
Lemma assoc_app : forall A (a b : list (string * A)) n,
  assoc (a ++ b) n = match assoc a n with Some x => Some x | None => assoc b n end.
Proof.
  intros. unfold assoc. induction a as [|[m x] a IH]; cbn; [reflexivity|].
  destruct (String.eqb m n); [reflexivity|apply IH].
Qed.
Lemma assoc_none : forall A (a : list (string * A)) n, ~ In n (map fst a) -> assoc a n = None.
Proof.
  intros A a n. unfold assoc. induction a as [|[m x] a IH]; cbn; intros H; [reflexivity|].
  destruct (String.eqb_spec m n); [exfalso; apply H; auto|apply IH; auto].
Qed.
Lemma assoc_some_in : forall A (a : list (string * A)) n x, assoc a n = Some x -> In n (map fst a).
Proof.
  intros A a n x. unfold assoc. induction a as [|[m y] a IH]; cbn; [discriminate|].
  destruct (String.eqb_spec m n); auto.
Qed.
Lemma assoc_in : forall A (a : list (string * A)) n x, assoc a n = Some x -> In (n, x) a.
Proof.
  intros A a n x. unfold assoc. induction a as [|[m y] a IH]; cbn; [discriminate|].
  destruct (String.eqb_spec m n).
  - intros E; inversion E; subst; auto.
  - auto.
Qed.

(** kernels, at the level of storages *)
Definition ek (uuid : Z -> Z) (c : kernel_call) : event := EK (c_kernel c) (c_name c) (map uuid (c_ins c)) (map uuid (c_outs c)).

Definition trace_ok (uuid : Z -> Z) (names : Z -> string) (insts : list Z) (ks : list kernel_call)
  (tr : naming -> list op * list (string * list op) * naming) : Prop :=
  forall st, (forall i, n_name st i = names i) -> NoDup (map names insts) ->
  (forall n, In n (map names insts) -> n_counter st n = 0) ->
  exists ops gs st', tr st = (ops, gs, st') /\ map fst gs = map names insts /\
    layout (assoc gs) ops (map names insts) (map (ek uuid) ks) /\
    (forall i, n_name st' i = names i) /\
    (forall n, ~ In n (map names insts) -> n_counter st' n = n_counter st n).

Lemma NoDup_app3 : forall A (a b : list A), NoDup (a ++ b) -> NoDup a /\ NoDup b /\ (forall x, In x a -> ~ In x b).
Proof.
  induction a; cbn; intros b H.
  - repeat split; auto using NoDup_nil.
  - inversion H; subst. destruct (IHa _ H3) as (Ha & Hb & D). repeat split; auto.
    + constructor; auto. intros Hi; apply H2. apply in_or_app; auto.
    + intros x [->|Hi]; [intros Hb'; apply H2; apply in_or_app; auto|apply D; auto].
Qed.
Lemma trace_cons_ok : forall uuid names a b ka kb t1 t2,
  trace_ok uuid names a ka t1 -> trace_ok uuid names b kb t2 ->
  trace_ok uuid names (a ++ b) (ka ++ kb) (fun st =>
     let '(o1, g1, st) := t1 st in let '(o2, g2, st) := t2 st in (o1 ++ o2, g1 ++ g2, st)).
Proof.
  intros uuid names a b ka kb t1 t2 H1 H2 st Hn ND Hc.
  rewrite map_app in *. apply NoDup_app3 in ND as (ND1 & ND2 & D).
  destruct (H1 st Hn ND1) as (o1 & g1 & st1 & E1 & F1 & L1 & N1 & C1).
  { intros; apply Hc; apply in_or_app; auto. }
  destruct (H2 st1 N1 ND2) as (o2 & g2 & st2 & E2 & F2 & L2 & N2 & C2).
  { intros n Hi. rewrite C1; [apply Hc; apply in_or_app; auto|]. intros Ha. exact (D _ Ha Hi). }
  rewrite E1, E2. exists (o1 ++ o2), (g1 ++ g2), st2. split; [reflexivity|].
  split; [rewrite map_app; congruence|].
  split.
  { rewrite map_app. apply layout_app.
    - eapply layout_ext; [exact L1|]. intros n Hi. rewrite assoc_app.
      destruct (assoc g1 n) eqn:E; [reflexivity|].
      rewrite assoc_none; [reflexivity|]. rewrite F2. auto.
    - eapply layout_ext; [exact L2|]. intros n Hi. rewrite assoc_app.
      rewrite assoc_none; [reflexivity|]. rewrite F1. intros Ha; exact (D _ Ha Hi). }
  split; [exact N2|].
  intros n Hi. rewrite C2, C1; auto; intros Ha; apply Hi; apply in_or_app; auto.
Qed.
Lemma trace_step_ok : forall uuid names s, trace_ok uuid names (instances s) (kernels s) (trace_step uuid s).
Proof.
  intros uuid names. induction s using step_ind'.
  - intros st Hn ND Hc. cbn. exists [Linalg k name dev (ir uuid ins) (ir uuid outs)], [], st. repeat split; auto.
    cbn. unfold ek; cbn. apply l_kernel. constructor.
  - intros st Hn ND Hc. cbn. exists [Comment], [], st. repeat split; auto. cbn. do 2 constructor.
  - assert (B : trace_ok uuid names (flat_map instances body) (flat_map kernels body) (trace_steps uuid body)).
    { induction H.
      - intros st Hn ND Hc. cbn. exists [], [], st. repeat split; auto. constructor.
      - cbn [flat_map]. exact (trace_cons_ok _ _ _ _ _ _ _ _ H IHForall). }
    intros st Hn ND Hc. rewrite trace_step_call. cbn [instances kernels map] in *.
    inversion ND as [|x l Hni ND' EE]; subst.
    unfold unique_name. rewrite Hn, Hc by (left; reflexivity). cbn [Z.eqb].
    match goal with |- context [trace_steps uuid body ?s] => destruct (B s) as (o & g & st' & E & F & L & N & C) end.
    + intros i. cbn. unfold zset. destruct (Z.eqb_spec i inst); [congruence|apply Hn].
    + exact ND'.
    + intros n Hi. cbn. unfold sset. destruct (String.eqb_spec n (names inst)); [subst; contradiction|].
      apply Hc. right; exact Hi.
    + rewrite E. eexists _, _, _. split; [reflexivity|]. split; [cbn; congruence|].
      split.
      { rewrite <- (app_nil_r (map names (flat_map instances body))), <- (app_nil_r (map (ek uuid) (flat_map kernels body))).
        eapply l_call with (b := o).
        - unfold assoc; cbn. rewrite String.eqb_refl. reflexivity.
        - eapply layout_ext; [exact L|]. intros n Hi. unfold assoc; cbn.
          destruct (String.eqb_spec (names inst) n); [subst; contradiction|reflexivity].
        - constructor. }
      split; [exact N|].
      intros n Hi. rewrite (C n) by (intros Hx; apply Hi; right; exact Hx). cbn. unfold sset.
      destruct (String.eqb_spec n (names inst)); [subst; exfalso; apply Hi; left; reflexivity|reflexivity].
Qed.

(* ---------------- the module between the passes ---------------- *)
Definition graph (g : string * list op) : top := SubGraph (fst g) (snd g).
Definition shape (init : list op) (main : string) (ins outs : list Z) (gs : list (string * list op)) (tail : list top) : list top :=
  SubGraph "init" init :: SubGraph "deinit" [] :: Leaf (CallGraph main ins outs) :: map graph gs ++ tail.
Definition free_names (gs : list (string * list op)) : Prop := forall n, In n (map fst gs) -> reserved n = false.
Definition table (t : list string) : list top := [SubGraph "op_symbol_table" (map LinalgRegister t)].

Lemma reserved_false : forall n, reserved n = false <-> n <> "init"%string /\ n <> "deinit"%string /\ n <> "op_symbol_table"%string.
Proof.
  intros n. unfold reserved. rewrite !orb_false_iff, !String.eqb_neq. tauto.
Qed.
Lemma fold_lookup : forall gs n acc, NoDup (map fst gs) ->
  fold_left (fun acc t => match t with SubGraph m b => if String.eqb m n then Some b else acc | _ => acc end) (map graph gs) acc =
  match assoc gs n with Some b => Some b | None => acc end.
Proof.
  induction gs as [|[m b] gs IH]; intros n acc ND; cbn; [reflexivity|].
  inversion ND; subst. rewrite IH by assumption.
  unfold assoc at 2; cbn. destruct (String.eqb_spec m n) as [->|].
  - rewrite assoc_none by assumption. reflexivity.
  - reflexivity.
Qed.
Lemma lookup_shape : forall i main ins outs gs t n, NoDup (map fst gs) -> reserved n = false ->
  lookup_graph (shape i main ins outs gs (table t)) n = assoc gs n.
Proof.
  intros i main ins outs gs t n ND R. apply reserved_false in R as (R1 & R2 & R3).
  unfold lookup_graph, shape, table. cbn [fold_left].
  rewrite (proj2 (String.eqb_neq _ _) (not_eq_sym R1)), (proj2 (String.eqb_neq _ _) (not_eq_sym R2)).
  rewrite fold_left_app, fold_lookup by assumption. cbn [fold_left].
  rewrite (proj2 (String.eqb_neq _ _) (not_eq_sym R3)). destruct (assoc gs n); reflexivity.
Qed.
Fixpoint put (gs : list (string * list op)) (n : string) (b : list op) : list (string * list op) :=
  match gs with
  | [] => []
  | (m, x) :: r => if String.eqb m n then (m, b) :: r else (m, x) :: put r n b
  end.
Lemma put_names : forall gs n b, map fst (put gs n b) = map fst gs.
Proof. induction gs as [|[m x] gs IH]; intros; cbn; [reflexivity|]. destruct (String.eqb m n); cbn; [reflexivity|]. f_equal. apply IH. Qed.
Lemma assoc_put : forall gs n b k, In n (map fst gs) -> assoc (put gs n b) k = if String.eqb n k then Some b else assoc gs k.
Proof.
  induction gs as [|[m x] gs IH]; intros n b k Hi; cbn; [destruct Hi|].
  destruct (String.eqb_spec m n) as [->|N].
  - unfold assoc; cbn. destruct (String.eqb n k); reflexivity.
  - destruct Hi as [E|Hi]; [cbn in E; congruence|]. specialize (IH n b k Hi).
    unfold assoc in *; cbn. destruct (String.eqb_spec m k) as [->|].
    + destruct (String.eqb_spec n k); [congruence|reflexivity].
    + exact IH.
Qed.
Lemma set_last_graphs : forall gs n b tail, NoDup (map fst gs) -> In n (map fst gs) -> snd (set_last tail n b) = false ->
  set_last (map graph gs ++ tail) n b = (map graph (put gs n b) ++ tail, true).
Proof.
  assert (NF : forall gs n b tail, ~ In n (map fst gs) -> snd (set_last tail n b) = false ->
    snd (set_last (map graph gs ++ tail) n b) = false).
  { induction gs as [|[m x] gs IH]; intros n b tail Hi Ht; cbn; [exact Ht|]. cbn in Hi.
    specialize (IH n b tail). destruct (set_last (map graph gs ++ tail) n b) as [r f]. cbn in IH.
    rewrite IH by tauto. destruct (String.eqb_spec m n); [tauto|reflexivity]. }
  induction gs as [|[m x] gs IH]; intros n b tail ND Hi Ht; cbn; [destruct Hi|].
  inversion ND as [|y l Hni ND' EE]; subst. destruct (String.eqb_spec m n) as [->|N].
  - pose proof (NF gs n b tail Hni Ht) as HF. destruct (set_last (map graph gs ++ tail) n b) as [r f]. cbn in HF. subst f. reflexivity.
  - destruct Hi as [E|Hi]; [cbn in E; congruence|]. rewrite IH by assumption. reflexivity.
Qed.
Lemma set_graph_shape : forall i main ins outs gs t n b, NoDup (map fst gs) -> In n (map fst gs) -> reserved n = false ->
  set_graph (shape i main ins outs gs (table t)) n b = shape i main ins outs (put gs n b) (table t).
Proof.
  intros i main ins outs gs t n b ND Hi R. apply reserved_false in R as (R1 & R2 & R3).
  unfold set_graph, shape. cbn [set_last].
  rewrite set_last_graphs; [|assumption|assumption|].
  - reflexivity.
  - unfold table. cbn [set_last]. rewrite (proj2 (String.eqb_neq _ _) (not_eq_sym R3)). reflexivity.
Qed.

(* the memory solver, on events *)
Fixpoint index_events (es : list event) (c : counts) : counts :=
  match es with
  | [] => c
  | EK _ _ ins _ :: r => index_events r (fold_left bump ins c)
  | EF _ :: r => index_events r c
  end.
Definition free_event (o : op) : list event := match o with TensorFree u => [EF u] | _ => [] end.
Fixpoint free_events (es : list event) (c : counts) : list event * counts :=
  match es with
  | [] => ([], c)
  | EK k n ins outs :: r =>
      let '(c1, frees) := fold_left count_down ins (c, []) in
      let '(r', c2) := free_events r c1 in
      (EK k n ins outs :: flat_map free_event frees ++ r', c2)
  | EF u :: r => let '(r', c2) := free_events r c in (EF u :: r', c2)
  end.
Lemma index_events_app : forall a b c, index_events (a ++ b) c = index_events b (index_events a c).
Proof. induction a as [|[k n i o|u] a IH]; intros; cbn; auto. Qed.
Lemma free_events_app : forall a b c, free_events (a ++ b) c =
  let '(a', c1) := free_events a c in let '(b', c2) := free_events b c1 in (a' ++ b', c2).
Proof.
  induction a as [|[k n i o|u] a IH]; intros b c; cbn.
  - destruct (free_events b c); reflexivity.
  - destruct (fold_left count_down i (c, [])) as [c1 fr]. rewrite IH.
    destruct (free_events a c1) as [a' c2]. destruct (free_events b c2) as [b' c3]. rewrite app_comm_cons, app_assoc. reflexivity.
  - rewrite IH. destruct (free_events a c) as [a' c2]. destruct (free_events b c2) as [b' c3]. reflexivity.
Qed.
Definition istep (fuel : nat) (m : list top) (acc : res counts) (o : op) : res counts :=
  do c <- acc;
  match o with
  | CallGraph callee _ _ => match lookup_graph m callee with Some b => index_tensors fuel m b c | None => RUB end
  | Linalg _ _ _ ins _ => ROk (fold_left bump ins c)
  | _ => ROk c
  end.
Lemma index_tensors_S : forall fuel m body c, index_tensors (S fuel) m body c = fold_left (istep fuel m) body (ROk c).
Proof. reflexivity. Qed.
Lemma index_layout : forall i main ins outs gs t ops fp es,
  NoDup (map fst gs) -> free_names gs -> layout (assoc gs) ops fp es ->
  forall fuel c, (List.length fp <= fuel)%nat ->
  fold_left (istep fuel (shape i main ins outs gs (table t))) ops (ROk c) = ROk (index_events es c).
Proof.
  intros i main ins outs gs t ops fp es ND FN L. induction L; intros fuel c Hf; cbn [fold_left index_events]; auto.
  - apply IHL; assumption.
  - apply IHL; assumption.
  - apply IHL; assumption.
  - cbn [Datatypes.length] in Hf. rewrite app_length in Hf. destruct fuel as [|f]; [lia|].
    cbn [istep rbind]. rewrite lookup_shape, H; [|assumption|apply FN; eapply assoc_some_in; eassumption].
    rewrite index_tensors_S, fold_left_app, IHL1 by lia. cbn [fold_left istep rbind].
    rewrite IHL2 by lia. rewrite index_events_app. reflexivity.
Qed.

Definition fstep (fuel : nat) (acc : res (list top * counts * list op)) (o : op) : res (list top * counts * list op) :=
  do st <- acc;
  let '(m, c, done) := st in
  match o with
  | CallGraph callee _ _ =>
      do mc <- insert_frees fuel m callee c;
      ROk (fst mc, snd mc, done ++ [o])
  | Linalg _ _ _ ins _ =>
      let '(c, frees) := fold_left count_down ins (c, []) in
      ROk (m, c, done ++ [o] ++ frees)
  | _ => ROk (m, c, done ++ [o])
  end.
Lemma insert_frees_S : forall fuel m name c, insert_frees (S fuel) m name c =
  match lookup_graph m name with
  | None => RUB
  | Some body =>
      do st <- fold_left (fstep fuel) body (ROk (m, c, []));
      let '(m, c, done) := st in ROk (set_graph m name done, c)
  end.
Proof. reflexivity. Qed.
Lemma count_down_frees : forall l c fr, Forall (fun o => exists u, o = TensorFree u) fr ->
  Forall (fun o => exists u, o = TensorFree u) (snd (fold_left count_down l (c, fr))).
Proof.
  induction l as [|u l IH]; intros c fr H; cbn; [exact H|].
  destruct (c u) as [n|]; [|apply IH; exact H].
  apply IH. destruct (n - 1 =? 0); [constructor; eauto|exact H].
Qed.
Lemma layout_frees : forall G fr, Forall (fun o => exists u, o = TensorFree u) fr -> layout G fr [] (flat_map free_event fr).
Proof. induction 1 as [|o fr [u ->] H IH]; cbn; [constructor|]. constructor. exact IH. Qed.

Lemma frees_layout : forall i main ins outs t ops fp es G, layout G ops fp es ->
  forall gs fuel c done, NoDup (map fst gs) -> free_names gs -> NoDup fp -> (forall n, In n fp -> assoc gs n = G n) ->
  (List.length fp <= fuel)%nat ->
  exists gs' ops', fold_left (fstep fuel) ops (ROk (shape i main ins outs gs (table t), c, done)) =
      ROk (shape i main ins outs gs' (table t), snd (free_events es c), done ++ ops') /\
    map fst gs' = map fst gs /\ (forall n, ~ In n fp -> assoc gs' n = assoc gs n) /\
    layout (assoc gs') ops' fp (fst (free_events es c)).
Proof.
  intros i main ins outs t ops fp es G L. induction L; intros gs fuel c done ND FN NF EG Hf; cbn [fold_left free_events].
  - exists gs, []. cbn. rewrite app_nil_r. repeat split; auto. constructor.
  - cbn [fstep rbind]. destruct (IHL gs fuel c (done ++ [Comment]) ND FN NF EG Hf) as (gs' & ops' & E & F & O & L').
    exists gs', (Comment :: ops'). rewrite E, <- app_assoc. repeat split; auto. constructor; exact L'.
  - cbn [fstep rbind]. pose proof (count_down_frees ins0 c [] (Forall_nil _)) as HF.
    destruct (fold_left count_down ins0 (c, [])) as [c1 fr]. cbn [snd] in HF.
    destruct (IHL gs fuel c1 (done ++ [Linalg k name dev ins0 outs0] ++ fr) ND FN NF EG Hf) as (gs' & ops' & E & F & O & L').
    destruct (free_events es c1) as [r' c2] eqn:EF. cbn [fst snd] in *.
    exists gs', (Linalg k name dev ins0 outs0 :: fr ++ ops'). rewrite E, <- !app_assoc. repeat split; auto.
    constructor. apply (layout_app _ _ [] _ (layout_frees _ _ HF)). exact L'.
  - cbn [fstep rbind]. destruct (IHL gs fuel c (done ++ [TensorFree u]) ND FN NF EG Hf) as (gs' & ops' & E & F & O & L').
    destruct (free_events es c) as [r' c2]. cbn [fst snd] in *.
    exists gs', (TensorFree u :: ops'). rewrite E, <- app_assoc. repeat split; auto. constructor; exact L'.
  - cbn [Datatypes.length] in Hf. rewrite app_length in Hf. destruct fuel as [|f]; [lia|].
    inversion NF as [|x l Hni NF' EE]; subst. apply NoDup_app3 in NF' as (NF1 & NF2 & D).
    assert (Ec : assoc gs callee = Some (b ++ [Return])) by (rewrite EG by (left; reflexivity); assumption).
    pose proof (assoc_some_in _ _ _ _ Ec) as Hin.
    cbn [fstep rbind]. rewrite insert_frees_S, lookup_shape by auto. rewrite Ec.
    destruct (IHL1 gs f c [] ND FN NF1) as (g1 & b' & E1 & F1 & O1 & L1').
    { intros n Hn. apply EG. right. apply in_or_app; auto. } { lia. }
    rewrite fold_left_app, E1. cbn [fold_left fstep rbind app].
    rewrite free_events_app. destruct (free_events es1 c) as [e1 c1]. cbn [fst snd] in *.
    assert (ND1 : NoDup (map fst g1)) by (rewrite F1; exact ND).
    assert (Hin1 : In callee (map fst g1)) by (rewrite F1; exact Hin).
    rewrite set_graph_shape by auto.
    set (g2 := put g1 callee (b' ++ [Return])).
    assert (F2 : map fst g2 = map fst gs) by (unfold g2; rewrite put_names; exact F1).
    assert (A2 : forall k, assoc g2 k = if String.eqb callee k then Some (b' ++ [Return]) else assoc g1 k)
      by (intros; apply assoc_put; exact Hin1).
    clearbody g2.
    destruct (IHL2 g2 (S f) c1 (done ++ [CallGraph callee ins0 outs0])) as (g3 & r' & E3 & F3 & O3 & L3).
    { rewrite F2; exact ND. }
    { intros n Hn. rewrite F2 in Hn. auto. }
    { exact NF2. }
    { intros n Hn. rewrite A2. destruct (String.eqb_spec callee n) as [->|].
      - exfalso. apply Hni. apply in_or_app; auto.
      - rewrite O1; [apply EG; right; apply in_or_app; auto|]. intros Hn1; exact (D _ Hn1 Hn). }
    { lia. }
    rewrite E3. destruct (free_events es2 c1) as [e2 c2]. cbn [fst snd] in *.
    exists g3, (CallGraph callee ins0 outs0 :: r'). rewrite <- app_assoc. split; [reflexivity|].
    split; [congruence|]. split.
    { intros n Hn. rewrite O3, A2.
      - destruct (String.eqb_spec callee n) as [->|]; [exfalso; apply Hn; left; reflexivity|].
        apply O1. intros Hx; apply Hn; right; apply in_or_app; auto.
      - intros Hx; apply Hn; right; apply in_or_app; auto. }
    econstructor.
    + rewrite O3, A2, String.eqb_refl; [reflexivity|]. intros Hx; apply Hni; apply in_or_app; auto.
    + eapply layout_ext; [exact L1'|]. intros n Hn. rewrite O3, A2.
      * destruct (String.eqb_spec callee n) as [->|]; [|reflexivity]. exfalso; apply Hni; apply in_or_app; auto.
      * exact (D n Hn).
    + exact L3.
Qed.
