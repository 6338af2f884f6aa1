(** Loading and collecting the parameters of a module. *)
From Verif Require Import Base DTypeModel SymModel NnModel NnSpec NnProofs.
Local Open Scope Z_scope.

(* ------------------------------------------------------------------ *)
(** ** Tables *)
Section Table.
Context {V : Type}.
Notation keys := (map (@fst str V)).
Lemma eqb_str_eq a b : eqb_str a b = true <-> a = b.
Proof. unfold eqb_str. destruct (list_eq_dec Z.eq_dec a b); split; congruence. Qed.
Lemma find_in n (s : table V) v : find n s = Some v -> In (n, v) s.
Proof.
  unfold find. destruct (List.find _ s) as [[m w]|] eqn:E; [|discriminate]. intro H. injection H as ->. apply List.find_some in E as [E1 E2].
  apply eqb_str_eq in E2. cbn in E2. subst m. exact E1.
Qed.
Lemma find_none n (s : table V) : find n s = None <-> ~ In n (keys s).
Proof.
  unfold find. destruct (List.find _ s) as [[m w]|] eqn:E.
  - apply List.find_some in E as [E1 E2]. apply eqb_str_eq in E2. cbn in E2. subst m. split; [discriminate|]. intro H. exfalso. apply H.
    apply in_map_iff. exists (n, w). auto.
  - split; [|auto]. intros _ H. apply in_map_iff in H as ([m w] & E1 & E2). cbn in E1. subst m. pose proof (List.find_none _ _ E _ E2) as X. cbn in X.
    assert (eqb_str n n = true) by (apply eqb_str_eq; reflexivity). congruence.
Qed.
Lemma in_find n v (s : table V) : NoDup (keys s) -> In (n, v) s -> find n s = Some v.
Proof.
  intros N H. destruct (find n s) as [w|] eqn:E.
  - apply find_in in E. f_equal. induction s as [|[m u] s IH]; [destruct H|]. cbn in N. inversion N as [|? ? N1 N2]; subst.
    destruct H as [H|H]; destruct E as [E|E].
    + congruence.
    + injection H as -> ->. exfalso. apply N1. apply in_map_iff. exists (n, w). auto.
    + injection E as -> ->. exfalso. apply N1. apply in_map_iff. exists (n, v). auto.
    + exact (IH N2 H E).
  - apply find_none in E. exfalso. apply E. apply in_map_iff. exists (n, v). auto.
Qed.
Lemma push_all_ok l : forall s : table V, NoDup (keys (s ++ l)) -> push_all l s = ROk (s ++ l).
Proof.
  induction l as [|[n v] l IH]; intros s N; cbn [push_all]; [rewrite app_nil_r; reflexivity|]. unfold push.
  assert (F : find n s = None).
  { apply find_none. intro H. rewrite map_app in N. cbn [map fst] in N. apply NoDup_remove in N as [_ N]. apply N. apply in_app_iff. auto. }
  rewrite F. cbn [rbind]. rewrite IH; rewrite <- app_assoc; [reflexivity|exact N].
Qed.
Lemma push_all_dup l : forall s : table V, NoDup (keys s) -> ~ NoDup (keys (s ++ l)) -> push_all l s = RAbort.
Proof.
  induction l as [|[n v] l IH]; intros s N D; [rewrite app_nil_r in D; contradiction|]. cbn [push_all]. unfold push.
  destruct (find n s) as [w|] eqn:F; [reflexivity|]. cbn [rbind]. apply IH.
  - rewrite map_app. apply find_none in F. cbn [map fst]. apply (Permutation_NoDup (Permutation_cons_append _ _)). constructor; assumption.
  - rewrite <- app_assoc. exact D.
Qed.
End Table.

(* ------------------------------------------------------------------ *)
(** ** One operator *)
Section Load.
Context {T : Type}.
Variable view : list Z -> T -> res T.
Variable pack_conv : T -> T.
Variable pack_linear : T -> option T -> T.
Variable arm : bool.
Variable iter : table (option T) -> table (option T).
Variable device_load : version -> table T -> @op T -> res (@op T).
Notation op := (@op T).
Notation node := (@node T).
Notation cpu_load := (cpu_load view pack_conv pack_linear arm).
Notation op_load := (op_load view pack_conv pack_linear arm device_load).
Notation load := (load view pack_conv pack_linear arm device_load).
Notation params := (params iter).

Definition entries (o : op) : table (option T) :=
  let w := (o_name o ++ s_weight, o_weight o) in
  let b := (o_name o ++ s_bias, o_bias o) in
  match o_kind o with
  | KConv1D _ _ _ _ bias | KConv2D _ _ _ _ bias _ | KConv3D _ _ _ _ _ bias | KLayerNorm _ _ bias | KLinear _ _ bias _ => w :: (if bias then [b] else [])
  | KLayerNorm2D _ => [w; b]
  | KEmbedding _ _ | KRMSNorm => [w]
  | KParam n _ => [(n, o_weight o)]
  | KNone => []
  end.
Lemma entries_nodup o : NoDup (map fst (entries o)).
Proof.
  assert (W : o_name o ++ s_weight <> o_name o ++ s_bias) by (intro E; apply app_inv_head in E; discriminate).
  unfold entries. destruct (o_kind o); try destruct bias; cbn [map fst]; repeat constructor; cbn [In]; intuition.
Qed.
Lemma op_params_ok o : op_params o = ROk (entries o).
Proof.
  assert (E : op_params o = push_all (entries o) []) by (unfold op_params, entries; destruct (o_kind o); reflexivity).
  rewrite E. apply (push_all_ok (entries o) []). apply entries_nodup.
Qed.

(** Entry x of an operator holds parameter e as the file has it. *)
Definition entry_of (s : table T) (e : str * option (list Z)) (x : str * option T) : Prop :=
  fst x = fst e /\ exists t, snd x = Some t /\ taken view s e t.
Definition same_op (o o' : op) : Prop := o_name o' = o_name o /\ o_kind o' = o_kind o /\ o_device o' = o_device o.

Ltac avail H :=
  match type of H with
  | forall e, In e [] -> _ => clear H
  | forall e, In e (?a :: ?l) -> _ =>
      let H1 := fresh "A" in let H2 := fresh "A" in
      assert (H1 := H a (or_introl eq_refl)); assert (H2 := fun e (q : In e l) => H e (or_intror q)); clear H;
      let t := fresh "t" in let raw := fresh "raw" in let F := fresh "F" in let V := fresh "V" in
      destruct H1 as (t & raw & F & V); cbn [fst snd] in F, V; avail H2
  end.
Ltac steps := repeat (unfold pull_weight, pull_bias, view_weight, view_bias, pull; cbn [rbind set_weight set_bias o_name o_kind o_device o_weight o_bias negb Z.eqb];
  match goal with
  | F : find ?n ?s = _ |- context [find ?n ?s] => rewrite F
  | V : view ?a ?b = _ |- context [view ?a ?b] => rewrite V
  end); unfold pull_weight, pull_bias, view_weight, view_bias, pull; cbn [rbind set_weight set_bias o_name o_kind o_device o_weight o_bias negb Z.eqb].
Lemma cpu_load_ok v s o : known_version v -> ordinary arm (o_kind o) = true ->
  (forall e, In e (parameters v (o_kind o) (o_name o)) -> exists t, taken view s e t) ->
  exists o', cpu_load v s o = ROk o' /\ same_op o o' /\ Forall2 (entry_of s) (parameters v (o_kind o) (o_name o)) (entries o').
Proof.
  intros KV OR H. destruct o as [nm k dv w b]. cbn [o_name o_kind] in *. unfold NnModel.cpu_load. cbn [o_kind].
  assert (FIN : forall t raw (e : str * option (list Z)), find (fst e) s = Some raw -> match snd e with None => t = raw | Some shape => view shape raw = ROk t end ->
            entry_of s e (fst e, Some t)) by (intros t raw e F V; split; [reflexivity|]; exists t; split; [reflexivity|]; exists raw; auto).
  destruct k as [ic oc kk g bias|ic oc kh kw bias packs|ic oc kd kh kw bias|n h|c|sh affine bias|ic oc bias i|n sh| |]; cbn [ordinary] in OR.
  - replace (g =? 0) with false in * by (symmetry; apply Bool.negb_true_iff; exact OR).
    destruct v; [| | |congruence]; destruct bias; cbn [parameters conv_load] in *; avail H; unfold conv_load; steps; eexists; (split; [reflexivity|]); (split; [repeat split|]);
    subst; repeat constructor; eapply FIN; cbn [fst snd]; eauto.
  - destruct packs; [discriminate|].
    destruct v; [| | |congruence]; destruct bias; cbn [parameters] in *; avail H; unfold conv_load, conv2d_pack; steps; eexists; (split; [reflexivity|]); (split; [repeat split|]);
    subst; repeat constructor; eapply FIN; cbn [fst snd]; eauto.
  - destruct v; [| | |congruence]; destruct bias; cbn [parameters] in *; avail H; unfold conv_load; steps; eexists; (split; [reflexivity|]); (split; [repeat split|]);
    subst; repeat constructor; eapply FIN; cbn [fst snd]; eauto.
  - destruct v; [| | |congruence]; cbn [parameters] in *; avail H; steps; eexists; (split; [reflexivity|]); (split; [repeat split|]);
    subst; repeat constructor; eapply FIN; cbn [fst snd]; eauto.
  - cbn [parameters] in *; avail H; steps; eexists; (split; [reflexivity|]); (split; [repeat split|]);
    subst; repeat constructor; eapply FIN; cbn [fst snd]; eauto.
  - subst affine. destruct bias; cbn [parameters app] in *; avail H; steps; eexists; (split; [reflexivity|]); (split; [repeat split|]);
    subst; repeat constructor; eapply FIN; cbn [fst snd]; eauto.
  - unfold linear_load. destruct v; [| | |congruence]; destruct i; destruct bias; try discriminate; cbn [parameters cpu_linear_bias] in *; avail H;
    try (replace arm with false in * by (symmetry; apply Bool.negb_true_iff; exact OR)); steps; eexists; (split; [reflexivity|]); (split; [repeat split|]);
    subst; repeat constructor; eapply FIN; cbn [fst snd]; eauto.
  - destruct sh as [|a sh]; destruct v; try congruence; cbn [parameters] in *; avail H; steps; eexists; (split; [reflexivity|]); (split; [repeat split|]);
    subst; repeat constructor; eapply FIN; cbn [fst snd]; eauto.
  - destruct v; try congruence; cbn [parameters] in *; avail H; steps; eexists; (split; [reflexivity|]); (split; [repeat split|]);
    subst; repeat constructor; eapply FIN; cbn [fst snd]; eauto.
  - eexists; split; [reflexivity|]. split; [repeat split|]. constructor.
Qed.

(** Loading succeeds only if the file has every parameter. *)
Ltac crush H := repeat (cbn [rbind set_weight set_bias o_name o_kind o_device o_weight o_bias] in H;
  match type of H with
  | context [match find ?n ?s with _ => _ end] => destruct (find n s) eqn:?; [|discriminate H]
  | context [rbind (view ?a ?b) _] => destruct (view a b) eqn:?; [|discriminate H..]
  | context [view ?a ?b = ROk _] => idtac
  end).
Lemma rbind_ok {A B} (x : res A) (k : A -> res B) r : rbind x k = ROk r -> exists a, x = ROk a /\ k a = ROk r.
Proof. destruct x; try discriminate. eauto. Qed.
Lemma pull_weight_inv s (o o' : op) : pull_weight s o = ROk o' -> exists raw, find (o_name o ++ s_weight) s = Some raw /\ o' = set_weight o raw.
Proof. unfold pull_weight, pull. destruct (find _ s) as [raw|]; [|discriminate]. cbn. intro H. injection H as <-. eauto. Qed.
Lemma pull_bias_inv s (o o' : op) : pull_bias s o = ROk o' -> exists raw, find (o_name o ++ s_bias) s = Some raw /\ o' = set_bias o raw.
Proof. unfold pull_bias, pull. destruct (find _ s) as [raw|]; [|discriminate]. cbn. intro H. injection H as <-. eauto. Qed.
Lemma view_weight_inv sh (o o' : op) : view_weight view sh o = ROk o' -> exists t u, o_weight o = Some t /\ view sh t = ROk u /\ o' = set_weight o u.
Proof. unfold view_weight. destruct (o_weight o) as [t|]; [|discriminate]. destruct (view sh t) as [u| | |] eqn:E; try discriminate. cbn. intro H. injection H as <-. exists t, u. auto. Qed.
Lemma view_bias_inv sh (o o' : op) : view_bias view sh o = ROk o' -> exists t u, o_bias o = Some t /\ view sh t = ROk u /\ o' = set_bias o u.
Proof. unfold view_bias. destruct (o_bias o) as [t|]; [|discriminate]. destruct (view sh t) as [u| | |] eqn:E; try discriminate. cbn. intro H. injection H as <-. exists t, u. auto. Qed.
Ltac inv H :=
  repeat (cbn [rbind] in H;
  match type of H with
  | rbind _ _ = ROk _ => let a := fresh "o" in let H1 := fresh "H" in apply rbind_ok in H as (a & H1 & H); inv H1
  | pull_weight _ _ = ROk _ => let raw := fresh "raw" in let F := fresh "F" in apply pull_weight_inv in H as (raw & F & H); cbn [set_weight set_bias o_name o_weight o_bias] in F; subst
  | pull_bias _ _ = ROk _ => let raw := fresh "raw" in let F := fresh "F" in apply pull_bias_inv in H as (raw & F & H); cbn [set_weight set_bias o_name o_weight o_bias] in F; subst
  | view_weight _ _ _ = ROk _ => let t := fresh "t" in let u := fresh "u" in let F := fresh "F" in let V := fresh "V" in apply view_weight_inv in H as (t & u & F & V & H); cbn [set_weight set_bias o_name o_weight o_bias] in F; try (injection F as F); subst
  | view_bias _ _ _ = ROk _ => let t := fresh "t" in let u := fresh "u" in let F := fresh "F" in let V := fresh "V" in apply view_bias_inv in H as (t & u & F & V & H); cbn [set_weight set_bias o_name o_weight o_bias] in F; try (injection F as F); subst
  | ROk _ = ROk _ => injection H as H; subst
  end).
Lemma cpu_load_needs v s o o' : known_version v -> ordinary arm (o_kind o) = true -> cpu_load v s o = ROk o' ->
  forall e, In e (parameters v (o_kind o) (o_name o)) -> exists t, taken view s e t.
Proof.
  intros KV OR H. destruct o as [nm k dv w b]. cbn [o_name o_kind] in *. unfold NnModel.cpu_load in H. cbn [o_kind] in H.
  assert (FIN : forall (e : str * option (list Z)) raw, find (fst e) s = Some raw -> (match snd e with None => True | Some shape => exists t, view shape raw = ROk t end) -> exists t, taken view s e t).
  { intros [n [sh|]] raw F V; cbn [fst snd] in *; [destruct V as [t V]; exists t, raw; split; [exact F|exact V]|exists raw, raw; split; [exact F|reflexivity]]. }
  destruct k as [ic oc kk g bias|ic oc kh kw bias packs|ic oc kd kh kw bias|n h|c|sh affine bias|ic oc bias i|n sh| |]; cbn [ordinary] in OR.
  - replace (g =? 0) with false in * by (symmetry; apply Bool.negb_true_iff; exact OR).
    destruct v; [| | |congruence]; destruct bias; cbn [parameters conv_load] in *; inv H; intros e He; cbn [In] in He;
    intuition (subst; eapply FIN; cbn [fst snd]; eauto).
  - destruct packs; [discriminate|]. destruct v; [| | |congruence]; destruct bias; cbn [parameters conv_load] in *; unfold conv_load, conv2d_pack in H; inv H; intros e He; cbn [In] in He;
    intuition (subst; eapply FIN; cbn [fst snd]; eauto).
  - destruct v; [| | |congruence]; destruct bias; cbn [parameters conv_load] in *; inv H; intros e He; cbn [In] in He;
    intuition (subst; eapply FIN; cbn [fst snd]; eauto).
  - destruct v; [| | |congruence]; cbn [parameters] in *; inv H; intros e He; cbn [In] in He; intuition (subst; eapply FIN; cbn [fst snd]; eauto).
  - cbn [parameters] in *; inv H; intros e He; cbn [In] in He; intuition (subst; eapply FIN; cbn [fst snd]; eauto).
  - subst affine. destruct bias; cbn [parameters app] in *; inv H; intros e He; cbn [In] in He; intuition (subst; eapply FIN; cbn [fst snd]; eauto).
  - unfold linear_load in H. destruct v; [| | |congruence]; destruct i; destruct bias; try discriminate; cbn [parameters cpu_linear_bias] in *;
    try (replace arm with false in * by (symmetry; apply Bool.negb_true_iff; exact OR)); inv H; intros e He; cbn [In] in He; intuition (subst; eapply FIN; cbn [fst snd]; eauto).
  - unfold pull in H. cbn [parameters] in *. destruct v; try congruence; destruct (find n s) as [raw|] eqn:F; cbn [rbind] in H; try discriminate; destruct sh as [|a sh]; inv H; intros e He; cbn [In] in He;
    intuition (subst; eapply FIN; cbn [fst snd]; eauto).
  - destruct v; try congruence; cbn [parameters] in *; inv H; intros e He; cbn [In] in He; intuition (subst; eapply FIN; cbn [fst snd]; eauto).
  - intros e [].
Qed.

(* ------------------------------------------------------------------ *)
(** ** The whole tree *)
Definition load_all (f : pfile) := fix each (l : list node) : res (list node) :=
  match l with [] => ROk [] | c :: l => do c <- load f c; do l <- each l; ROk (c :: l) end.
Definition step (f : pfile) (o o' : op) : Prop := op_load (f_version f) (f_data f) o = ROk o'.
Lemma load_ok f n : (forall o, In o (ops n) -> exists o', step f o o') -> exists n', load f n = ROk n' /\ Forall2 (step f) (ops n) (ops n').
Proof.
  induction n as [a b d v o|a b d v bf fs cs IH] using node_all; intro H.
  - destruct (H o (or_introl eq_refl)) as [o' E]. unfold step in E. cbn [NnModel.load]. rewrite E. cbn [rbind]. eexists. split; [reflexivity|]. repeat constructor. exact E.
  - change (load f (NModule a b d v bf fs cs)) with (do cs <- load_all f cs; ROk (NModule a b d v bf (fs ++ [f]) cs)).
    assert (G : exists cs', load_all f cs = ROk cs' /\ Forall2 (step f) (flat_map ops cs) (flat_map ops cs')).
    { cbn [ops] in H. clear a b d v bf fs. induction IH as [|c cs I1 _ I2]; [exists []; split; [reflexivity|constructor]|]. cbn [flat_map] in H.
      destruct I1 as (c' & E1 & F1); [intros o Ho; apply H, in_app_iff; auto|]. destruct I2 as (l' & E2 & F2); [intros o Ho; apply H, in_app_iff; auto|].
      cbn [load_all]. rewrite E1. cbn [rbind]. rewrite E2. cbn [rbind]. exists (c' :: l'). split; [reflexivity|]. cbn [flat_map]. apply Forall2_app; assumption. }
    destruct G as (cs' & E & F). rewrite E. cbn [rbind]. eexists. split; [reflexivity|]. exact F.
Qed.
Lemma load_inv f n : forall n', load f n = ROk n' -> Forall2 (step f) (ops n) (ops n').
Proof.
  induction n as [a b d v o|a b d v bf fs cs IH] using node_all; intros n' H.
  - cbn [NnModel.load] in H. apply rbind_ok in H as (o' & E & H). injection H as <-. repeat constructor. exact E.
  - change (load f (NModule a b d v bf fs cs)) with (do cs <- load_all f cs; ROk (NModule a b d v bf (fs ++ [f]) cs)) in H.
    apply rbind_ok in H as (cs' & E & H). injection H as <-. cbn [ops]. revert cs' E. clear a b d v bf fs.
    induction IH as [|c cs I1 _ I2]; intros cs' E.
    + injection E as <-. constructor.
    + cbn [load_all] in E. apply rbind_ok in E as (c' & E1 & E). apply rbind_ok in E as (l' & E2 & E). injection E as <-. cbn [flat_map]. apply Forall2_app; auto.
Qed.

Definition params_all := fix each (l : list node) (acc : table (option T)) : res (table (option T)) :=
  match l with [] => ROk acc | c :: l => do p <- params c; do acc <- push_all (iter p) acc; each l acc end.
Definition all_entries (l : list op) : table (option T) := flat_map entries l.
Notation keys := (map (@fst str (option T))).
Lemma nodup_app_l {A} (a b : list A) : NoDup (a ++ b) -> NoDup a.
Proof. induction a as [|x a IH]; intro H; [constructor|]. inversion H; subst. constructor; [intro; apply H2, in_app_iff; auto|apply IH; assumption]. Qed.
Lemma nodup_app_r {A} (a b : list A) : NoDup (a ++ b) -> NoDup b.
Proof. induction a as [|x a IH]; intro H; [exact H|]. inversion H; subst. auto. Qed.
Hypothesis iter_perm : forall s, Permutation (iter s) s.
Lemma nodup_dec (l : list str) : {NoDup l} + {~ NoDup l}. Proof. apply ListDec.NoDup_dec. apply list_eq_dec, Z.eq_dec. Qed.
Lemma params_spec n :
  (NoDup (keys (all_entries (ops n))) -> exists g, params n = ROk g /\ Permutation g (all_entries (ops n))) /\
  (~ NoDup (keys (all_entries (ops n))) -> params n = RAbort).
Proof.
  induction n as [a b d v o|a b d v bf fs cs IH] using node_all.
  - cbn [ops all_entries flat_map NnModel.params]. rewrite op_params_ok. unfold all_entries. cbn [flat_map]. rewrite app_nil_r. split.
    + intros _. eexists. split; [reflexivity|apply Permutation_refl].
    + intro H. destruct (H (entries_nodup o)).
  - change (params (NModule a b d v bf fs cs)) with (params_all cs []). cbn [ops].
    assert (G : forall acc, NoDup (keys acc) ->
      (NoDup (keys (acc ++ all_entries (flat_map ops cs))) -> exists g, params_all cs acc = ROk g /\ Permutation g (acc ++ all_entries (flat_map ops cs))) /\
      (~ NoDup (keys (acc ++ all_entries (flat_map ops cs))) -> params_all cs acc = RAbort)).
    2: { destruct (G [] ltac:(constructor)) as [G1 G2]. auto. }
    clear a b d v bf fs. induction IH as [|c cs [I1 I2] _ I3]; intros acc NA.
    + cbn [params_all flat_map all_entries]. rewrite !app_nil_r. split; [intros _; exists acc; split; [reflexivity|apply Permutation_refl]|contradiction].
    + cbn [params_all flat_map]. unfold all_entries in *. rewrite flat_map_app. fold (all_entries (ops c)) in *. fold (all_entries (flat_map ops cs)) in *.
      destruct (nodup_dec (keys (all_entries (ops c)))) as [N1|N1].
      * destruct (I1 N1) as (g & Eg & Pg). rewrite Eg. cbn [rbind].
        assert (P1 : Permutation (iter g) (all_entries (ops c))) by (eapply Permutation_trans; [apply iter_perm|exact Pg]).
        assert (PK : Permutation (keys (acc ++ iter g)) (keys (acc ++ all_entries (ops c)))) by (apply Permutation_map, Permutation_app_head, P1).
        destruct (nodup_dec (keys (acc ++ iter g))) as [N2|N2].
        -- rewrite push_all_ok by exact N2. cbn [rbind]. destruct (I3 (acc ++ iter g) N2) as [J1 J2].
           assert (PJ : Permutation ((acc ++ iter g) ++ all_entries (flat_map ops cs)) (acc ++ all_entries (ops c) ++ all_entries (flat_map ops cs))).
           { rewrite <- app_assoc. apply Permutation_app_head, Permutation_app_tail, P1. }
           split.
           ++ intro N. destruct J1 as (h & Eh & Ph).
              { apply (Permutation_NoDup (Permutation_sym (Permutation_map _ PJ))). exact N. }
              exists h. split; [exact Eh|]. eapply Permutation_trans; [exact Ph|exact PJ].
           ++ intro N. apply J2. intro N'. apply N. apply (Permutation_NoDup (Permutation_map _ PJ)). exact N'.
        -- rewrite push_all_dup by assumption. cbn [rbind]. split; [|reflexivity]. intro N. exfalso. apply N2. apply (Permutation_NoDup (Permutation_sym PK)).
           rewrite app_assoc, map_app in N. exact (nodup_app_l _ _ N).
      * rewrite (I2 N1). cbn [rbind]. split; [|reflexivity]. intro N. exfalso. apply N1. rewrite map_app in N. apply nodup_app_r in N. rewrite map_app in N. exact (nodup_app_l _ _ N).
Qed.
End Load.
