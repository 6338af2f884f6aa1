(** Load and params together; moving between devices; Sequential; buffers. *)
From Verif Require Import Base DTypeModel SymModel SymSpec SymPrint NnModel NnSpec NnProofs NnLoad.
Local Open Scope Z_scope.

Section Main.
Context {T : Type}.
Variable view : list Z -> T -> res T.
Variable pack_conv : T -> T.
Variable pack_linear : T -> option T -> T.
Variable arm : bool.
Variable iter : table (option T) -> table (option T).
Variable device_load : version -> table T -> @op T -> res (@op T).
Hypothesis iter_perm : forall s, Permutation (iter s) s.
Notation op := (@op T).
Notation node := (@node T).
Notation load := (load view pack_conv pack_linear arm device_load).
Notation params := (params iter).
Notation step := (step view pack_conv pack_linear arm device_load).

Definition loadable (m : node) : Prop := forall o, In o (ops m) -> o_device o = 0 /\ ordinary arm (o_kind o) = true.

Lemma Forall2_in_l {A B} (R : A -> B -> Prop) l l' x : Forall2 R l l' -> In x l -> exists y, In y l' /\ R x y.
Proof. induction 1 as [|a b l l' H _ IH]; intros []; [subst; exists b; split; [left; reflexivity|exact H]|]. destruct IH as (y & Hy & Ry); [assumption|]. exists y. split; [right; exact Hy|exact Ry]. Qed.
Lemma Forall2_in_r {A B} (R : A -> B -> Prop) l l' y : Forall2 R l l' -> In y l' -> exists x, In x l /\ R x y.
Proof. induction 1 as [|a b l l' H _ IH]; intros []; [subst; exists a; split; [left; reflexivity|exact H]|]. destruct IH as (x & Hx & Rx); [assumption|]. exists x. split; [right; exact Hx|exact Rx]. Qed.
Lemma taken_fun s e (t u : T) : taken view s e t -> taken view s e u -> t = u.
Proof. intros (r & F & V) (r' & F' & V'). rewrite F in F'. injection F' as <-. destruct (snd e); congruence. Qed.

Theorem load_params f m : known_version (f_version f) -> loadable m ->
  (forall e, In e (all_parameters (f_version f) (ops m)) -> exists t, taken view (f_data f) e t) ->
  exists m', load f m = ROk m' /\ Forall2 (@same_op T) (ops m) (ops m') /\
    map fst (all_entries (ops m')) = map fst (all_parameters (f_version f) (ops m)) /\
    forall name x, In (name, x) (all_entries (ops m')) <-> exists e t, In e (all_parameters (f_version f) (ops m)) /\ fst e = name /\ x = Some t /\ taken view (f_data f) e t.
Proof.
  intros KV LD AV. set (v := f_version f) in *. set (s := f_data f) in *.
  assert (STEP : forall o, In o (ops m) -> exists o', step f o o' /\ same_op o o' /\ Forall2 (entry_of view s) (parameters v (o_kind o) (o_name o)) (entries o')).
  { intros o Ho. destruct (LD o Ho) as [D O]. destruct (cpu_load_ok view pack_conv pack_linear arm v s o KV O) as (o' & E & S & F).
    - intros e He. apply AV. apply in_flat_map. exists o. auto.
    - exists o'. split; [|auto]. unfold NnLoad.step, op_load. rewrite D. exact E. }
  destruct (load_ok view pack_conv pack_linear arm device_load f m) as (m' & E & F).
  { intros o Ho. destruct (STEP o Ho) as (o' & S & _). eauto. }
  exists m'. split; [exact E|]. clear E.
  assert (G : Forall2 (@same_op T) (ops m) (ops m') /\ Forall2 (entry_of view s) (all_parameters v (ops m)) (all_entries (ops m'))).
  { revert F STEP. generalize (ops m) (ops m'). clear. induction 1 as [|o o' l l' H _ IH]; intro ST; [split; constructor|].
    destruct (ST o (or_introl eq_refl)) as (o2 & S2 & SM & F2). unfold NnLoad.step in H, S2. rewrite H in S2. injection S2 as <-.
    destruct IH as [I1 I2]; [intros x Hx; apply ST; right; exact Hx|]. split; [constructor; assumption|]. cbn [all_parameters all_entries flat_map]. apply Forall2_app; assumption. }
  destruct G as [G1 G2]. split; [exact G1|]. split.
  - clear - G2. induction G2 as [|e x l l' [H _] _ IH]; [reflexivity|]. cbn [map]. rewrite H, IH. reflexivity.
  - intros name x. split.
    + intro Hx. destruct (Forall2_in_r _ _ _ _ G2 Hx) as (e & He & N & t & X & TK). cbn [fst snd] in *. exists e, t. auto.
    + intros (e & t & He & <- & -> & TK). destruct (Forall2_in_l _ _ _ _ G2 He) as ([n x] & Hx & N & u & X & TU). cbn [fst snd] in *. subst n x.
      rewrite (taken_fun _ _ _ _ TK TU). exact Hx.
Qed.
Theorem load_needs f m m' : known_version (f_version f) -> loadable m -> load f m = ROk m' ->
  forall e, In e (all_parameters (f_version f) (ops m)) -> exists t, taken view (f_data f) e t.
Proof.
  intros KV LD H e He. apply load_inv in H. apply in_flat_map in He as (o & Ho & He). destruct (Forall2_in_l _ _ _ _ H Ho) as (o' & _ & S).
  destruct (LD o Ho) as [D O]. unfold NnLoad.step, op_load in S. rewrite D in S. cbn [Z.eqb] in S.
  eapply cpu_load_needs; eassumption.
Qed.

Lemma shapes_related v k nm : Forall2 (fun e f : str * option (list Z) => fst e = fst f /\ (snd f = None \/ snd f = snd e)) (parameters v k nm) (parameters VTemporary k nm).
Proof. destruct k as [? ? ? ? bias|? ? ? ? bias ?|? ? ? ? ? bias| | |sh affine bias|? ? bias i|? sh| |]; try destruct bias; try destruct affine; try destruct i; destruct v; cbn [parameters app]; repeat (apply Forall2_cons || apply Forall2_nil); (split; [reflexivity|]); cbn [fst snd]; first [left; reflexivity|right; reflexivity]. Qed.
Lemma Forall2_flat {A B C} (R : B -> C -> Prop) (f : A -> list B) (g : A -> list C) l : (forall a, Forall2 R (f a) (g a)) -> Forall2 R (flat_map f l) (flat_map g l).
Proof. intro H. induction l as [|a l IH]; [constructor|]. cbn [flat_map]. apply Forall2_app; [apply H|exact IH]. Qed.
Lemma names_any_version v (l : list op) : map fst (all_parameters v l) = map fst (all_parameters VTemporary l).
Proof.
  assert (G := Forall2_flat _ (fun o : op => parameters v (o_kind o) (o_name o)) (fun o => parameters VTemporary (o_kind o) (o_name o)) l (fun o => shapes_related v (o_kind o) (o_name o))).
  unfold all_parameters. induction G as [|e f a b [H _] _ IH]; [reflexivity|]. cbn [map]. rewrite H, IH. reflexivity.
Qed.
(** The tensors of a table of parameters as a file. *)
Definition tensors (g : table (option T)) : table T := flat_map (fun e => match snd e with Some t => [(fst e, t)] | None => [] end) g.
Lemma tensors_in n t g : In (n, t) (tensors g) <-> In (n, Some t) g.
Proof.
  unfold tensors. rewrite in_flat_map. split.
  - intros ([m [u|]] & Hm & H); [|destruct H]. destruct H as [H|[]]. injection H as -> ->. exact Hm.
  - intro H. exists (n, Some t). split; [exact H|left; reflexivity].
Qed.
Lemma tensors_nodup g : NoDup (map fst g) -> NoDup (map fst (tensors g)).
Proof.
  induction g as [|[n [t|]] g IH]; intro H; [constructor| |]; cbn in H; inversion H; subst; cbn [tensors flat_map map app fst snd].
  - constructor; [|apply IH; assumption]. intro Hn. apply in_map_iff in Hn as ([m u] & E & Hm). cbn in E. subst m. apply (proj1 (tensors_in n u g)) in Hm.
    apply H2. apply in_map_iff. exists (n, Some u). auto.
  - apply IH. assumption.
Qed.
Hypothesis view_again : forall sh t u, view sh t = ROk u -> view sh u = ROk u.
Theorem reload f m m' g : known_version (f_version f) -> loadable m -> load f m = ROk m' -> params m' = ROk g ->
  exists m2 g2, load (mkFile VTemporary (tensors g)) m = ROk m2 /\ params m2 = ROk g2 /\ forall e, In e g2 <-> In e g.
Proof.
  intros KV LD HL HP. pose proof (load_needs f m m' KV LD HL) as AV. destruct (load_params f m KV LD AV) as (m0 & E0 & SO & NM & IN).
  rewrite HL in E0. injection E0 as <-.
  destruct (params_spec view iter iter_perm m') as [P1 P2].
  destruct (nodup_dec (map fst (all_entries (ops m')))) as [N|N]; [|rewrite (P2 N) in HP; discriminate].
  destruct (P1 N) as (g0 & E0 & PG). rewrite HP in E0. injection E0 as <-.
  assert (NG : NoDup (map fst g)) by (apply (Permutation_NoDup (Permutation_sym (Permutation_map fst PG))); exact N).
  assert (REL := Forall2_flat _ (fun o : op => parameters (f_version f) (o_kind o) (o_name o)) (fun o => parameters VTemporary (o_kind o) (o_name o)) (ops m) (fun o => shapes_related (f_version f) (o_kind o) (o_name o))).
  fold (all_parameters (f_version f) (ops m)) in REL. fold (all_parameters VTemporary (ops m)) in REL.
  assert (TR : forall e f0 t, fst e = fst f0 /\ (snd f0 = None \/ snd f0 = snd e) -> In e (all_parameters (f_version f) (ops m)) -> taken view (f_data f) e t -> taken view (tensors g) f0 t).
  { intros e f0 t [E1 E2] He TK. exists t.
    assert (F : find (fst f0) (tensors g) = Some t).
    { apply in_find; [apply tensors_nodup; exact NG|]. apply tensors_in. apply (Permutation_in _ (Permutation_sym PG)). apply IN. exists e, t. auto. }
    split; [exact F|]. destruct E2 as [-> | E2]; [reflexivity|]. rewrite E2. destruct TK as (raw & _ & V). destruct (snd e); [exact (view_again _ _ _ V)|reflexivity]. }
  destruct (load_params (mkFile VTemporary (tensors g)) m) as (m2 & EL & SO2 & NM2 & IN2); [discriminate|exact LD| |].
  { cbn [f_version f_data]. intros f0 Hf. destruct (Forall2_in_r _ _ _ _ REL Hf) as (e & He & R). destruct (AV e He) as (t & TK). exists t. exact (TR e f0 t R He TK). }
  exists m2. cbn [f_version f_data] in *.
  destruct (params_spec view iter iter_perm m2) as [Q1 _]. destruct Q1 as (g2 & EP & PG2); [rewrite NM2, <- (names_any_version (f_version f)), <- NM; exact N|].
  exists g2. split; [exact EL|]. split; [exact EP|]. intros [n x]. split; intro H.
  - apply (Permutation_in _ PG2), IN2 in H. destruct H as (f0 & t & Hf & <- & -> & TK). apply (Permutation_in _ (Permutation_sym PG)). apply IN.
    destruct (Forall2_in_r _ _ _ _ REL Hf) as (e & He & R). destruct (AV e He) as (u & TU). assert (TU' := TR e f0 u R He TU). rewrite (taken_fun _ _ _ _ TK TU').
    exists e, u. destruct R. auto.
  - apply (Permutation_in _ PG), IN in H. destruct H as (e & t & He & <- & -> & TK). apply (Permutation_in _ (Permutation_sym PG2)). apply IN2.
    destruct (Forall2_in_l _ _ _ _ REL He) as (f0 & Hf & R). exists f0, t. split; [exact Hf|]. split; [symmetry; apply R|]. split; [reflexivity|]. exact (TR e f0 t R He TK).
Qed.
End Main.

(* ------------------------------------------------------------------ *)
(** ** Devices *)
Section Device.
Context {T : Type}.
Variable view : list Z -> T -> res T.
Variable pack_conv : T -> T.
Variable pack_linear : T -> option T -> T.
Variable arm : bool.
Variable iter : table (option T) -> table (option T).
Variable device_load : version -> table T -> @op T -> res (@op T).
Variable on_device : Z -> bool.
Variable move : Z -> T -> T.
Notation to_device := (to_device view pack_conv pack_linear arm iter device_load on_device move).
Definition to_all (dev : Z) := fix each (l : list (@node T)) : res (list (@node T)) :=
  match l with [] => ROk [] | c :: l => do c <- to_device dev c; do l <- each l; ROk (c :: l) end.
Lemma to_host dev m : dev = 0 \/ on_device dev = false ->
  exists m', to_device dev m = ROk m' /\ ops m' = ops m /\ forall k x, below m' k x -> n_device x = dev.
Proof.
  intro H. assert (G : negb (dev =? 0) && on_device dev = false) by (destruct H as [-> | ->]; [reflexivity|apply Bool.andb_false_r]).
  induction m as [a b d v o|a b d v bf fs cs IH] using node_all.
  - cbn [NnModel.to_device]. unfold layer_to. rewrite G. cbn [rbind]. eexists. split; [reflexivity|]. split; [reflexivity|].
    intros k x B. inversion B; subst; [reflexivity|]. match goal with h : In _ (n_children _) |- _ => destruct h end.
  - change (to_device dev (NModule a b d v bf fs cs)) with (do cs <- to_all dev cs; ROk (NModule a b d dev (map (fun e => (fst e, move dev (snd e))) bf) fs cs)).
    assert (K : exists cs', to_all dev cs = ROk cs' /\ flat_map ops cs' = flat_map ops cs /\ forall c, In c cs' -> forall k x, below c k x -> n_device x = dev).
    { induction IH as [|c cs (c' & E & O & D) _ (l & El & Ol & Dl)]; [exists []; repeat split; intros c []|].
      exists (c' :: l). cbn [to_all]. rewrite E. cbn [rbind]. rewrite El. cbn [rbind flat_map]. split; [reflexivity|]. split; [rewrite O, Ol; reflexivity|].
      intros x [<-|Hx]; [exact D|exact (Dl x Hx)]. }
    destruct K as (cs' & E & O & D). rewrite E. cbn [rbind]. eexists. split; [reflexivity|]. split; [exact O|].
    intros k x B. inversion B; subst; [reflexivity|]. eapply D; eassumption.
Qed.
End Device.

(* ------------------------------------------------------------------ *)
(** ** Sequential *)
Section Seq.
Variable I : Type.
Variable run : Z -> I -> res I.
Fixpoint run_all (l : list Z) (x : I) : res I := match l with [] => ROk x | a :: l => do y <- run a x; run_all l y end.
Lemma find_set n v (s : table Z) m : find m (map_set n v s) = if eqb_str n m then Some v else find m s.
Proof.
  unfold map_set, find. cbn [List.find fst]. destruct (eqb_str n m) eqn:E; [reflexivity|]. f_equal.
  induction s as [|[k u] s IH]; [reflexivity|]. cbn [filter List.find fst]. destruct (eqb_str k n) eqn:E1; cbn [negb].
  - apply eqb_str_eq in E1. subst k. rewrite E. exact IH.
  - cbn [List.find fst]. destruct (eqb_str k m); [reflexivity|exact IH].
Qed.
Definition built (l : list Z) : sequential := fold_left (fun q a => seq_add a q) l seq_empty.
Lemma built_ok l : q_count (built l) = Z.of_nat (length l) /\ q_names (built l) = map (fun i => show_int (Z.of_nat i)) (seq 0 (length l)) /\
  forall i, find (show_int (Z.of_nat i)) (q_map (built l)) = nth_error l i.
Proof.
  induction l as [|a l IH] using rev_ind.
  - repeat split. intro i. destruct i; reflexivity.
  - unfold built in *. rewrite fold_left_app. cbn [fold_left]. set (q := fold_left _ l seq_empty) in *. destruct IH as (C & N & M).
    unfold seq_add. cbn [q_count q_names q_map]. rewrite app_length. cbn [length]. split; [lia|]. split.
    + rewrite Nat.add_1_r, seq_S, map_app, N, C. reflexivity.
    + intro i. rewrite find_set, C, M. destruct (eqb_str (show_int (Z.of_nat (length l))) (show_int (Z.of_nat i))) eqn:E.
      * apply eqb_str_eq, show_int_inj in E; [|lia|lia]. assert (i = length l) by lia. subst i. rewrite nth_error_app2 by lia. rewrite Nat.sub_diag. reflexivity.
      * assert (i <> length l) by (intros ->; assert (eqb_str (show_int (Z.of_nat (length l))) (show_int (Z.of_nat (length l))) = true) by (apply eqb_str_eq; reflexivity); congruence).
        destruct (le_lt_dec (length l) i); [|rewrite nth_error_app1 by lia; reflexivity].
        rewrite !(proj2 (nth_error_None _ _)); [reflexivity|rewrite app_length; cbn; lia|lia].
Qed.
Theorem seq_order l x : seq_forward I run (built l) x = run_all l x.
Proof.
  destruct (built_ok l) as (_ & N & M). unfold seq_forward. rewrite N. clear N.
  assert (G : forall k j x, (j + k = length l)%nat -> seq_run I run (map (fun i => show_int (Z.of_nat i)) (seq j k)) (q_map (built l)) x = run_all (skipn j l) x).
  { induction k as [|k IH]; intros j y Hj.
    - cbn [seq map seq_run]. rewrite skipn_all2 by lia. reflexivity.
    - cbn [seq map seq_run]. rewrite M. destruct (nth_error l j) as [a|] eqn:E; [|apply nth_error_None in E; lia].
      assert (S : skipn j l = a :: skipn (S j) l).
      { clear - E. revert j E. induction l as [|b l IH]; intros [|j] E; cbn in *; [discriminate..| |].
        - injection E as ->. reflexivity.
        - rewrite (IH j E). reflexivity. }
      rewrite S. cbn [run_all]. destruct (run a y); [|reflexivity..]. cbn [rbind]. apply IH. lia. }
  exact (G (length l) 0%nat x eq_refl).
Qed.
End Seq.
