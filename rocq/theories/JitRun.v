(** Proofs for C69-C72, part 5: the run of the compiled program is the forward pass. *)
From Coq Require Import String DecimalString.
From Verif Require Import Base DTypeModel JitModel JitSpec JitProofs JitCode JitMachine JitLink.
Local Open Scope Z_scope.

Definition occ (u : Z) (l : list Z) : Z := Z.of_nat (count_occ Z.eq_dec l u).
Fixpoint occs (u : Z) (es : list event) : Z := match es with [] => 0 | EK _ _ ins _ :: r => occ u ins + occs u r | EF _ :: r => occs u r end.
Lemma occ_nonneg : forall u l, 0 <= occ u l. Proof. intros. unfold occ. lia. Qed.
Lemma occs_nonneg : forall u es, 0 <= occs u es.
Proof. induction es as [|[k n i o|w] es IH]; cbn; auto; try lia. pose proof (occ_nonneg u i). lia. Qed.
Lemma occ_cons : forall u w l, occ u (w :: l) = (if u =? w then 1 else 0) + occ u l.
Proof.
  intros. unfold occ. cbn [count_occ]. destruct (Z.eq_dec w u) as [->|N].
  - rewrite Z.eqb_refl. lia.
  - destruct (Z.eqb_spec u w); [congruence|]. lia.
Qed.
Lemma occ_in : forall u l, In u l <-> 0 < occ u l.
Proof. intros. unfold occ. rewrite (count_occ_In Z.eq_dec). lia. Qed.
Definition cnt (c : counts) (f : Z -> Z) : Prop := forall u, match c u with Some n => n = f u /\ 0 < n | None => f u = 0 end.
Lemma bump_cnt : forall c f u, cnt c f -> (forall w, 0 <= f w) -> cnt (bump c u) (fun w => f w + if w =? u then 1 else 0).
Proof.
  intros c f u H P w. specialize (H w). unfold bump. pose proof (P w). destruct (c u) as [n|] eqn:E; unfold zset.
  - destruct (Z.eqb_spec w u) as [->|N].
    + rewrite E in H. lia.
    + destruct (c w); lia.
  - destruct (Z.eqb_spec w u) as [->|N].
    + rewrite E in H. lia.
    + destruct (c w); lia.
Qed.
Lemma bumps_cnt : forall l c f, cnt c f -> (forall w, 0 <= f w) -> cnt (fold_left bump l c) (fun w => f w + occ w l).
Proof.
  induction l as [|u l IH]; intros c f H P; cbn [fold_left].
  - intros w. specialize (H w). change (occ w []) with 0. destruct (c w); lia.
  - pose proof (IH (bump c u) _ (bump_cnt c f u H P)) as Q. intros w. specialize (Q ltac:(intros x; specialize (P x); cbn beta; destruct (x =? u); lia) w).
    cbn beta in Q. rewrite occ_cons. destruct (fold_left bump l (bump c u) w); lia.
Qed.
Lemma index_cnt : forall es c f, cnt c f -> (forall w, 0 <= f w) -> cnt (index_events es c) (fun w => f w + occs w es).
Proof.
  induction es as [|[k n i o|u] es IH]; intros c f H P; cbn [index_events occs].
  - intros w. specialize (H w). destruct (c w); lia.
  - pose proof (IH (fold_left bump i c) _ (bumps_cnt i c f H P)) as Q. intros w.
    specialize (Q ltac:(intros x; specialize (P x); cbn beta; pose proof (occ_nonneg x i); lia) w). cbn beta in Q.
    destruct (index_events es (fold_left bump i c) w); lia.
  - exact (IH c f H P).
Qed.
(** the state of the counters: what is still to be read *)
Definition left_over (c : counts) (es : list event) : Prop := forall u, match c u with Some n => n = occs u es | None => occs u es = 0 end.
Lemma count_down_spec : forall ins c fr c' fr', fold_left count_down ins (c, fr) = (c', fr') ->
  (forall u, c' u = option_map (fun n => n - occ u ins) (c u)) /\
  (forall u, In (TensorFree u) fr' <-> In (TensorFree u) fr \/ exists n, c u = Some n /\ 1 <= n <= occ u ins).
Proof.
  induction ins as [|w ins IH]; intros c fr c' fr' E; cbn [fold_left] in E.
  - inversion E; subst. split; intros u.
    + change (occ u []) with 0. destruct (c' u); cbn [option_map]; [f_equal; lia|reflexivity].
    + change (occ u []) with 0. split; [auto|]. intros [H|(n & _ & H)]; [exact H|lia].
  - unfold count_down at 2 in E. destruct (c w) as [n|] eqn:Ec.
    + apply IH in E as [E1 E2]. split; intros u.
      * rewrite E1, occ_cons. unfold zset. destruct (Z.eqb_spec u w) as [->|]; [rewrite Ec; cbn [option_map]; f_equal; lia|].
        destruct (c u); cbn [option_map]; [f_equal; lia|reflexivity].
      * rewrite E2, occ_cons. unfold zset. pose proof (occ_nonneg u ins).
        destruct (Z.eqb_spec u w) as [->|Nw].
        -- rewrite Ec. destruct (Z.eqb_spec (n - 1) 0).
           ++ split; [intros _|intros _]; [right; exists n; split; [reflexivity|lia]|left; left; reflexivity].
           ++ split.
              ** intros [Hf|(m & Em & Hm)]; [left; exact Hf|]. right. exists n. inversion Em; subst. split; [reflexivity|lia].
              ** intros [Hf|(m & Em & Hm)]; [left; exact Hf|]. right. exists (n - 1). inversion Em; subst. split; [reflexivity|lia].
        -- assert (X : In (TensorFree u) (if n - 1 =? 0 then TensorFree w :: fr else fr) <-> In (TensorFree u) fr).
           { destruct (n - 1 =? 0); [|reflexivity]. cbn. split; [intros [Q|Q]; [congruence|exact Q]|auto]. }
           rewrite X. cbn [Z.add]. reflexivity.
    + apply IH in E as [E1 E2]. split; intros u.
      * rewrite E1, occ_cons. destruct (Z.eqb_spec u w) as [->|]; [rewrite Ec; reflexivity|]. destruct (c u); cbn [option_map]; [f_equal; lia|reflexivity].
      * rewrite E2, occ_cons. destruct (Z.eqb_spec u w) as [->|]; [|cbn [Z.add]; reflexivity].
        rewrite Ec. split; (intros [Hf|(m & Em & Hm)]; [left; exact Hf|discriminate]).
Qed.
Lemma free_events_kernels : forall es c k n i o, In (EK k n i o) (fst (free_events es c)) <-> In (EK k n i o) es.
Proof.
  induction es as [|[k' n' i' o'|u] es IH]; intros c k n i o; cbn [free_events]; [reflexivity| |].
  - destruct (fold_left count_down i' (c, [])) as [c1 fr]. specialize (IH c1 k n i o). destruct (free_events es c1) as [r c2].
    cbn [fst] in *. cbn [In]. rewrite in_app_iff, IH. split; [|tauto]. intros [H|[H|H]]; auto.
    apply in_flat_map in H as (x & _ & Hx). destruct x; try destruct Hx as [Hx|[]]; try discriminate; destruct Hx.
  - specialize (IH c k n i o). destruct (free_events es c) as [r c2]. cbn [fst In] in *. rewrite IH. split; intros [H|H]; auto; discriminate.
Qed.
Definition solved (solver : bool) (es : list event) : list event :=
  if solver then fst (free_events es (index_events es (fun _ => None))) else es.
Lemma solved_kernels : forall solver es k n i o, In (EK k n i o) (solved solver es) <-> In (EK k n i o) es.
Proof. intros [|] es k n i o; cbn; [apply free_events_kernels|reflexivity]. Qed.
Lemma start_left_over : forall es, left_over (index_events es (fun _ => None)) es.
Proof.
  intros es u. assert (C : cnt (fun _ => None) (fun _ => 0)) by (intros w; reflexivity).
  pose proof (index_cnt es _ _ C ltac:(intros; lia) u) as H. cbn beta in H.
  destruct (index_events es (fun _ => None) u); lia.
Qed.

Lemma kernel_names : forall storage l, names_consistent l -> consistent (map (ek storage) l).
Proof.
  intros storage l H k k' n i o i' o' H1 H2 N. apply in_map_iff in H1 as (c & E1 & Hc). apply in_map_iff in H2 as (d & E2 & Hd).
  inversion E1; inversion E2; subst. apply (H c d Hc Hd); [congruence|congruence].
Qed.
Lemma reads_occs : forall storage l u, reads storage l u <-> 0 < occs u (map (ek storage) l).
Proof.
  intros storage. induction l as [|c l IH]; intros u; cbn [map ek occs].
  - split; [intros (c & v & [] & _)|lia].
  - pose proof (occs_nonneg u (map (ek storage) l)). pose proof (occ_nonneg u (map storage (c_ins c))). specialize (IH u). split.
    + intros (d & v & [<-|Hd] & Hv & E).
      * assert (0 < occ u (map storage (c_ins c))) by (apply occ_in; apply in_map_iff; exists v; auto). lia.
      * assert (0 < occs u (map (ek storage) l)) by (apply IH; exists d, v; auto). lia.
    + intros H1. destruct (Z_lt_dec 0 (occ u (map storage (c_ins c)))) as [Hp|Hz].
      * apply occ_in in Hp. apply in_map_iff in Hp as (v & E & Hv). exists c, v. split; [left; reflexivity|auto].
      * destruct (proj2 IH ltac:(lia)) as (d & v & Hd & Hv). exists d, v. split; [right; exact Hd|exact Hv].
Qed.


Section Run.
Context {T S : Type} (nil : T) (exec : Z * string -> list T -> S -> res (list T * S)).
Variable storage : Z -> Z.
Notation events := (do_events nil exec).

Definition sim (held : Z -> Prop) (ev eu : Z -> T) : Prop := forall v, held v -> ev v = eu (storage v).
Definition after (held : Z -> Prop) (outs : list Z) (v : Z) : Prop :=
  last_on storage v outs \/ (held v /\ ~ In (storage v) (map storage outs)).
Lemma assign_bound : forall outs results held ev eu, List.length results = List.length outs -> sim held ev eu ->
  exists eu', assign eu (map storage outs) results = ROk eu' /\ sim (after held outs) (bound outs results ev) eu' /\
    (forall u, ~ In u (map storage outs) -> eu' u = eu u).
Proof.
  induction outs as [|v outs IH]; intros [|t results] held ev eu HL HS; try discriminate.
  - cbn. exists eu. split; [reflexivity|]. split; [|reflexivity].
    intros w [(l1 & l2 & E & _)|[Hw _]]; [destruct l1; discriminate|]. exact (HS w Hw).
  - cbn [assign map bound].
    destruct (IH results (fun w => w = v \/ (held w /\ storage w <> storage v)) (fun x => if x =? v then t else ev x) (zset eu (storage v) t)) as (eu' & E & HS' & HO).
    + cbn in HL. lia.
    + intros w [->|[Hw N]].
      * unfold zset. rewrite !Z.eqb_refl. reflexivity.
      * unfold zset. destruct (Z.eqb_spec w v); [subst; congruence|]. destruct (Z.eqb_spec (storage w) (storage v)); [contradiction|]. exact (HS w Hw).
    + exists eu'. split; [exact E|]. split.
      * intros w Hw. apply HS'. destruct Hw as [(l1 & l2 & E1 & N)|[Hw N]].
        -- destruct l1 as [|x l1]; cbn in E1; inversion E1; subst.
           ++ right. split; [left; reflexivity|exact N].
           ++ left. exists l1, l2. auto.
        -- cbn in N. right. split; [right; split; [exact Hw|]|]; intros Hx; apply N; auto.
      * intros u Hu. cbn in Hu. rewrite HO by tauto. unfold zset. destruct (Z.eqb_spec u (storage v)); [subst; tauto|reflexivity].
Qed.
Lemma perform_events : forall l outs held ev eu h ev' h', reads_newest storage held l outs -> sim held ev eu ->
  perform exec l ev h = ROk (ev', h') ->
  exists eu', events (map (ek storage) l) eu h = ROk (eu', h') /\ map ev' outs = map eu' (map storage outs) /\
    (forall u, ~ makes storage l u -> eu' u = eu u).
Proof.
  induction l as [|c l IH]; intros outs held ev eu h ev' h' HR HS HP.
  - cbn in HP. inversion HP; subst. exists eu. split; [reflexivity|]. split; [|reflexivity].
    rewrite map_map. apply map_ext_in. intros v Hv. apply HS. exact (HR v Hv).
  - cbn [perform] in HP. destruct HR as [HI HR].
    assert (EI : map eu (map storage (c_ins c)) = map ev (c_ins c)).
    { rewrite map_map. apply map_ext_in. intros v Hv. symmetry. apply HS. exact (HI v Hv). }
    destruct (exec (c_kernel c, c_name c) (map ev (c_ins c)) h) as [[results h1]| | |] eqn:EX; try discriminate.
    destruct (Nat.eqb_spec (List.length results) (List.length (c_outs c))) as [EL|]; [|discriminate].
    destruct (assign_bound (c_outs c) results held ev eu EL HS) as (eu1 & EA & HS1 & HO).
    destruct (IH outs _ _ _ _ _ _ HR HS1 HP) as (eu' & ED & EO & EK).
    exists eu'. split; [|split; [exact EO|]].
    + cbn [map ek do_events]. rewrite EI, EX. cbn [rbind fst snd]. rewrite EA. cbn [rbind]. exact ED.
    + intros u Hu. rewrite EK, HO; [reflexivity| |].
      * intros H. apply in_map_iff in H as (v & Ev & Hv). apply Hu. exists c, v. split; [left; reflexivity|]. auto.
      * intros (d & v & Hd & Hv). apply Hu. exists d, v. split; [right; exact Hd|exact Hv].
Qed.

(* ---------------- the memory solver ---------------- *)
Lemma drop_frees : forall fr r e h, Forall (fun o => exists u, o = TensorFree u) fr ->
  exists e1, events (flat_map free_event fr ++ r) e h = events r e1 h /\
    (forall u, In (TensorFree u) fr -> e1 u = nil) /\ (forall u, ~ In (TensorFree u) fr -> e1 u = e u).
Proof.
  induction fr as [|o fr IH]; intros r e h H.
  - exists e. split; [reflexivity|]. split; [intros u []|reflexivity].
  - inversion H as [|x l [u ->] H' E1]; subst. cbn [flat_map free_event app do_events].
    destruct (IH r (zset e u nil) h H') as (e1 & E & D1 & D2). exists e1. split; [exact E|].
    assert (Dec : forall w, In (TensorFree w) fr \/ ~ In (TensorFree w) fr).
    { intros w. clear. induction fr as [|o fr IH]; [right; intros []|]. destruct IH as [H|H]; [left; right; exact H|].
      destruct o; try (right; intros [E|E]; [discriminate|exact (H E)]).
      destruct (Z.eq_dec u w) as [->|N]; [left; left; reflexivity|]. right; intros [E|E]; [inversion E; contradiction|exact (H E)]. }
    split.
    + intros w [Ew|Hw]; [inversion Ew; subst|exact (D1 w Hw)].
      destruct (Dec w) as [Hw|Hw]; [exact (D1 w Hw)|]. rewrite (D2 w Hw). unfold zset. rewrite Z.eqb_refl. reflexivity.
    + intros w Hw. rewrite D2 by (intros Hx; apply Hw; right; exact Hx). unfold zset.
      destruct (Z.eqb_spec w u) as [->|]; [exfalso; apply Hw; left; reflexivity|reflexivity].
Qed.
Lemma assign_two : forall outs (ts : list T) (eu fu eu' : Z -> T), assign eu outs ts = ROk eu' ->
  exists fu', assign fu outs ts = ROk fu' /\ (forall u, fu' u = eu' u \/ (fu' u = fu u /\ eu' u = eu u)) /\
   (forall u, ~ In u outs -> fu' u = fu u).
Proof.
  induction outs as [|w outs IH]; intros [|t ts] eu fu eu' E; cbn in E; try discriminate.
  - inversion E; subst. exists fu. cbn. auto.
  - inversion E; subst. exists fu. cbn. auto.
  - destruct (IH ts _ (zset fu w t) _ E) as (fu' & E1 & R & N). exists fu'. split; [exact E1|]. split.
    + intros u. destruct (R u) as [Q|[Q1 Q2]]; [left; exact Q|]. unfold zset in Q1, Q2.
      destruct (u =? w); [left; congruence|right; auto].
    + intros u Hu. cbn in Hu. rewrite N by tauto. unfold zset. destruct (Z.eqb_spec u w); [subst; tauto|reflexivity].
Qed.
Definition no_free (es : list event) : Prop := forall u, ~ In (EF u) es.
Definition agree (P : Z -> Prop) (es : list event) (eu fu : Z -> T) : Prop := forall u, fu u = eu u \/ (occs u es = 0 /\ P u).
(** a storage that is not made again stays nil *)
Definition unmade (u : Z) (es : list event) : Prop := forall k n i o, In (EK k n i o) es -> ~ In u o.
Lemma stays_nil : forall es c eu h eu' h' u, unmade u es -> eu u = nil ->
  events (fst (free_events es c)) eu h = ROk (eu', h') -> eu' u = nil.
Proof.
  induction es as [|[k n i o|w] es IH]; intros c eu h eu' h' u HU HE HD; cbn [free_events] in HD.
  - cbn in HD. inversion HD as [[E1 E2]]. rewrite <- E1. exact HE.
  - pose proof (count_down_frees i c [] (Forall_nil _)) as HF.
    destruct (fold_left count_down i (c, [])) as [c1 fr]. specialize (IH c1). destruct (free_events es c1) as [r c2]. cbn [fst snd] in *.
    cbn [do_events] in HD. destruct (exec (k, n) (map eu i) h) as [x| | |]; try discriminate. cbn [rbind] in HD.
    destruct (assign eu o (fst x)) as [e1| | |] eqn:EA; try discriminate. cbn [rbind] in HD.
    destruct (drop_frees fr r e1 (snd x) HF) as (e2 & E2 & D1 & D2). rewrite E2 in HD.
    eapply IH; [|
      |exact HD].
    + intros k' n' i' o' Hin. apply (HU k' n' i' o'). right; exact Hin.
    + destruct (assign_two o (fst x) eu eu e1 EA) as (e1' & EA' & _ & N). assert (e1' = e1) as -> by congruence.
      assert (Hu : e1 u = nil) by (rewrite N; [exact HE|apply (HU k n i o); left; reflexivity]).
      assert (Dec : In (TensorFree u) fr \/ ~ In (TensorFree u) fr).
      { clear. induction fr as [|o fr IH]; [right; intros []|]. destruct IH as [H|H]; [left; right; exact H|].
        destruct o; try (right; intros [E|E]; [discriminate|exact (H E)]).
        destruct (Z.eq_dec u0 u) as [->|N]; [left; left; reflexivity|]. right; intros [E|E]; [inversion E; contradiction|exact (H E)]. }
      destruct Dec as [Hd|Hd]; [exact (D1 u Hd)|]. rewrite (D2 u Hd). exact Hu.
  - specialize (IH c). destruct (free_events es c) as [r c2]. cbn [fst do_events] in HD. eapply IH; [| |exact HD].
    + intros k' n' i' o' Hin. apply (HU k' n' i' o'). right; exact Hin.
    + unfold zset. destruct (u =? w); [reflexivity|exact HE].
Qed.
Lemma freed_events : forall P es c eu fu h eu' h', no_free es -> left_over c es -> agree P es eu fu ->
  (forall u, 0 < occs u es -> P u) -> events es eu h = ROk (eu', h') ->
  exists fu', events (fst (free_events es c)) fu h = ROk (fu', h') /\ agree P [] eu' fu' /\
    (forall u a k n i o b, es = a ++ EK k n i o :: b -> In u i -> occs u b = 0 -> unmade u b -> fu' u = nil).
Proof.
  intros P. induction es as [|[k n i o|w] es IH]; intros c eu fu h eu' h' NF LO AG HP HD.
  - cbn in *. inversion HD; subst. exists fu. split; [reflexivity|]. split; [exact AG|]. intros u a k n i o b E; destruct a; discriminate.
  - cbn [free_events do_events] in *. pose proof (count_down_frees i c [] (Forall_nil _)) as HF.
    destruct (fold_left count_down i (c, [])) as [c1 fr] eqn:EC. cbn [snd] in HF.
    destruct (count_down_spec _ _ _ _ _ EC) as [C1 C2].
    destruct (exec (k, n) (map eu i) h) as [x| | |] eqn:EX; try discriminate. cbn [rbind] in HD.
    destruct (assign eu o (fst x)) as [e1| | |] eqn:EA; try discriminate. cbn [rbind] in HD.
    assert (EI : map fu i = map eu i).
    { apply map_ext_in. intros v Hv. destruct (AG v) as [Q|[Q _]]; [exact Q|].
      apply occ_in in Hv. cbn [occs] in Q. pose proof (occs_nonneg v es). lia. }
    destruct (assign_two o (fst x) eu fu e1 EA) as (f1 & EF1 & R1 & N1).
    assert (FR : forall u, In (TensorFree u) fr <-> 0 < occ u i /\ occs u es = 0).
    { intros u. rewrite C2. specialize (LO u). cbn [occs] in LO. pose proof (occs_nonneg u es). pose proof (occ_nonneg u i). split.
      - intros [[]|(m & Em & Hm)]. rewrite Em in LO. lia.
      - intros [H1 H2]. right. destruct (c u) as [m|]; [exists m; split; [reflexivity|lia]|lia]. }
    destruct (drop_frees fr (fst (free_events es c1)) f1 (snd x) HF) as (f2 & EF2 & D1 & D2).
    assert (Dec : forall u, In (TensorFree u) fr \/ ~ In (TensorFree u) fr).
    { intros u. rewrite FR. destruct (Z_lt_dec 0 (occ u i)), (Z.eq_dec (occs u es) 0); tauto. }
    destruct (IH c1 e1 f2 (snd x) eu' h') as (fu' & ED & AG' & NL).
    + intros u Hu. apply (NF u). right; exact Hu.
    + intros u. rewrite C1. specialize (LO u). cbn [occs] in LO. pose proof (occs_nonneg u es). pose proof (occ_nonneg u i).
      destruct (c u); cbn; lia.
    + intros u. destruct (Dec u) as [Hd|Hd].
      * right. split; [apply FR; exact Hd|]. apply HP. cbn [occs]. apply FR in Hd. lia.
      * rewrite (D2 u Hd). destruct (R1 u) as [Q|[Q1 Q2]]; [left; exact Q|].
        destruct (AG u) as [Q|[Q3 Q4]]; [left; congruence|]. right. split; [|exact Q4].
        cbn [occs] in Q3. pose proof (occs_nonneg u es). pose proof (occ_nonneg u i). lia.
    + intros u Hu. apply HP. cbn [occs]. pose proof (occ_nonneg u i). lia.
    + exact HD.
    + destruct (free_events es c1) as [r c2] eqn:EFR. cbn [fst] in *.
      exists fu'. split; [|split; [exact AG'|]].
      * cbn [do_events]. rewrite EI, EX. cbn [rbind]. rewrite EF1. cbn [rbind]. rewrite EF2. exact ED.
      * intros u a k' n' i' o' b Eb Hi Hb HU. destruct a as [|y a]; cbn in Eb; inversion Eb; subst.
        -- assert (Hd : In (TensorFree u) fr) by (apply FR; split; [apply occ_in; exact Hi|exact Hb]).
           pose proof (stays_nil b c1 f2 (snd x) fu' h' u HU (D1 u Hd)) as SN. rewrite EFR in SN. exact (SN ED).
        -- eapply NL; [reflexivity|exact Hi|exact Hb|exact HU].
  - exfalso. apply (NF w). left; reflexivity.
Qed.

(* ---------------- one run ---------------- *)
Variable value : Z -> option T.
Lemma env0_ok : forall table e u,
  let f := fold_left (fun e o => match o with
            | ValueSymbol u => match value u with Some t => zset e u t | None => e end
            | _ => e end) table e in
  forall t, value u = Some t -> In (ValueSymbol u) table \/ e u = t -> f u = t.
Proof.
  induction table as [|o table IH]; intros e u f t Hv H; unfold f; cbn [fold_left].
  - destruct H as [[]|H]; exact H.
  - apply IH; [exact Hv|]. destruct H as [[->|H]|H]; [|left; exact H|].
    + right. rewrite Hv. unfold zset. rewrite Z.eqb_refl. reflexivity.
    + right. destruct o; try exact H. destruct (value u0) eqn:E; [|exact H]. unfold zset.
      destruct (Z.eqb_spec u u0) as [->|]; [congruence|exact H].
Qed.
Lemma reads_newest_mono : forall l outs (held held' : Z -> Prop),
  (forall v, held v -> (In v outs \/ exists c, In c l /\ In v (c_ins c)) -> held' v) ->
  reads_newest storage held l outs -> reads_newest storage held' l outs.
Proof.
  induction l as [|c l IH]; intros outs held held' H R; cbn in *.
  - intros v Hv. apply H; auto.
  - destruct R as [R1 R2]. split.
    + intros v Hv. apply H; [auto|]. right. exists c; auto.
    + eapply IH; [|exact R2]. cbn beta. intros v [Hl|[Hh Hn]] Q; [left; exact Hl|]. right. split; [|exact Hn].
      apply H; [exact Hh|]. destruct Q as [Q|(d & Hd & Hv)]; [left; exact Q|right; exists d; auto].
Qed.
Definition held0 (vals : list Z) (ins : list Z) (v : Z) : Prop :=
  last_on storage v ins \/ (value (storage v) <> None /\ In (storage v) vals /\ ~ In (storage v) (map storage ins)).
(** one forward pass *)
Lemma one_run : forall solver l ins outs vals before e0 inputs h r h',
  reads_newest storage (held0 vals ins) l outs -> List.length inputs = List.length ins ->
  (forall v t, value (storage v) = Some t -> before v = t) ->
  (forall u t, value u = Some t -> In u vals -> ~ In u (map storage ins) -> e0 u = t) ->
  (solver = true -> forall v, In v outs -> ~ reads storage l (storage v)) ->
  forward exec before ins l outs inputs h = ROk (r, h') ->
  exists e1 e2, assign e0 (map storage ins) inputs = ROk e1 /\ events (solved solver (map (ek storage) l)) e1 h = ROk (e2, h') /\
    map e2 (map storage outs) = r /\
    (forall u, ~ In u (map storage ins) -> ~ makes storage l u -> (solver = true -> ~ reads storage l u) -> e2 u = e0 u) /\
    (solver = true -> forall l1 c l2 v, l = l1 ++ c :: l2 -> In v (c_ins c) -> ~ reads storage l2 (storage v) -> ~ makes storage l2 (storage v) -> e2 (storage v) = nil).
Proof.
  intros solver l ins outs vals before e0 inputs h r h' HR HI HB HE HO HF.
  unfold forward in HF. destruct (perform exec l (bound ins inputs before) h) as [[ev h1]| | |] eqn:EP; try discriminate.
  inversion HF; subst. clear HF.
  set (held := fun v => value (storage v) <> None /\ In (storage v) vals /\ ~ In (storage v) (map storage ins)).
  assert (HS : sim held before e0).
  { intros v (H1 & H2 & H3). destruct (value (storage v)) as [t|] eqn:E; [|congruence].
    rewrite (HB v t E). symmetry. apply HE; auto. }
  destruct (assign_bound ins inputs held before e0 HI HS) as (e1 & EA & HS1 & HN).
  assert (HR' : reads_newest storage (after held ins) l outs).
  { eapply reads_newest_mono; [|exact HR]. intros v [Hl|(H1 & H2 & H3)] _; [left; exact Hl|]. right. split; [|exact H3]. split; [exact H1|split; assumption]. }
  destruct (perform_events l outs _ _ _ _ _ _ HR' HS1 EP) as (e2 & ED & EO & EK).
  exists e1. destruct solver; cbn [solved].
  - destruct (freed_events (reads storage l) (map (ek storage) l) (index_events (map (ek storage) l) (fun _ => None)) e1 e1 h e2 h') as (f2 & EF & AG & NL).
    + intros u Hu. apply in_map_iff in Hu as (c & E & _). discriminate.
    + apply start_left_over.
    + intros u; left; reflexivity.
    + intros u Hu. apply reads_occs. exact Hu.
    + exact ED.
    + exists f2. split; [exact EA|]. split; [exact EF|]. split.
      { rewrite EO, !map_map. apply map_ext_in. intros v Hv. destruct (AG (storage v)) as [Q|[_ Q]]; [exact Q|]. exfalso. exact (HO eq_refl v Hv Q). }
      split.
      { intros u H1 H2 H3. destruct (AG u) as [Q|[_ Q]]; [|exfalso; exact (H3 eq_refl Q)]. rewrite Q, EK, HN; auto. }
      intros _ l1 c l2 v El Hv Hr Hm.
      eapply (NL (storage v) (map (ek storage) l1) _ _ _ _ (map (ek storage) l2)).
      * rewrite El, map_app. reflexivity.
      * apply in_map. exact Hv.
      * pose proof (occs_nonneg (storage v) (map (ek storage) l2)). pose proof (proj2 (reads_occs storage l2 (storage v))).
        destruct (Z_lt_dec 0 (occs (storage v) (map (ek storage) l2))); [tauto|lia].
      * intros k n i o Hin Hu. apply in_map_iff in Hin as (d & E & Hd). inversion E; subst.
        apply in_map_iff in Hu as (w & Ew & Hw). apply Hm. exists d, w. auto.
  - exists e2. split; [exact EA|]. split; [exact ED|]. split; [symmetry; exact EO|]. split.
    + intros u H1 H2 _. rewrite EK, HN; auto.
    + discriminate.
Qed.
End Run.

(* ---------------- the compiled program ---------------- *)
Section Compiled.
Context {T S : Type} (nil : T) (exec : Z * string -> list T -> S -> res (list T * S)) (value : Z -> option T) (storage : Z -> Z).
Record ready (prog : list (Z * instr)) (vals : list Z) (uins uouts : list Z) (x : @interp T) : Prop := mkReady {
  r_prog : i_prog x = prog;
  r_stack : i_stack x = [];
  r_outs : (List.length (i_outs x) <= List.length uouts)%nat;
  r_env : forall u t, value u = Some t -> In u vals -> ~ In u uins -> i_env x u = t }.

Lemma compiled : forall o fuel names params inst ins body outs,
  let main := Call inst ins body outs in let l := kernels main in
  well_named names main -> names_consistent l -> o_strict o = false -> (List.length (instances main) <= fuel)%nat ->
  exists p x prog vals,
    compile o fuel (is_constant value) (trace storage names params main) = ROk p /\
    load nil value p = ROk x /\ ready prog vals (map storage ins) (map storage outs) x /\
    (forall u, reads storage l u -> value u <> None -> In u vals) /\
    (forall x inputs h e1 e2 h2, ready prog vals (map storage ins) (map storage outs) x -> List.length inputs = List.length ins ->
       assign (i_env x) (map storage ins) inputs = ROk e1 ->
       do_events nil exec (solved (o_memory_solver o) (map (ek storage) l)) e1 h = ROk (e2, h2) ->
       exists n pc, forall fuel, (n <= fuel)%nat -> run nil exec fuel inputs x h =
         ROk (map e2 (map storage outs), mkInterp prog pc [] e2 (map e2 (map storage outs)), h2)).
Proof.
  intros o fuel names params inst ins body outs main l WN NC HST Hf.
  destruct (canonical storage names params inst ins body outs WN) as (gs0 & t & C0 & E0). fold main in C0, E0. fold l in C0.
  set (gs1 := if o_dbg_info o then gs0 else map (on_body no_comments) gs0).
  assert (C1 : canon (map names (instances main)) (map (ek storage) l) (names inst) t gs1).
  { unfold gs1. destruct (o_dbg_info o); [exact C0|apply canon_dbg; exact C0]. }
  assert (E1 : (if o_dbg_info o then extract_symbols (trace storage names params main) else eliminate_dbg (extract_symbols (trace storage names params main)))
     = shape (map TensorRegister params) (names inst) (ir storage ins) (ir storage outs) gs1 (table t)).
  { unfold gs1. rewrite E0. destruct (o_dbg_info o); [reflexivity|]. apply eliminate_shape. }
  assert (M : exists gs, canon (map names (instances main)) (solved (o_memory_solver o) (map (ek storage) l)) (names inst) t gs /\
       (if o_memory_solver o then eager_memory fuel (shape (map TensorRegister params) (names inst) (ir storage ins) (ir storage outs) gs1 (table t))
        else ROk (shape (map TensorRegister params) (names inst) (ir storage ins) (ir storage outs) gs1 (table t)))
       = ROk (shape (map TensorRegister params) (names inst) (ir storage ins) (ir storage outs) gs (table t))).
  { destruct (o_memory_solver o); cbn [solved]; [|exists gs1; auto].
    destruct (canon_memory _ _ _ _ _ params (ir storage ins) (ir storage outs) fuel C1) as (gs & Eg & Cg); [rewrite map_length; exact Hf|].
    exists gs. auto. }
  destruct M as (gs & C & EM).
  assert (HC : consistent (solved (o_memory_solver o) (map (ek storage) l))).
  { intros k k' n i u i' u' H1 H2 N. apply solved_kernels in H1, H2. exact (kernel_names storage l NC _ _ _ _ _ _ _ H1 H2 N). }
  set (vals := params ++ fold_left add_uuid (filter (is_constant value) (all_tensors gs)) []).
  destruct (linked _ _ _ _ _ (o_eager o) (ir storage ins) (ir storage outs) vals C HC) as (code & prog & lp & EI & EL & Hlen & Hfetch & Hlabel & Hfrag).
  set (p := mkProgram code (symbols (main_code (names inst) (ir storage ins) (ir storage outs) ++ frag_code gs) vals t)).
  eexists p, _, prog, vals. split; [|split; [|split; [|split]]].
  - unfold compile. rewrite E1, EM. cbn [rbind]. rewrite HST.
    exact (compile_from (is_constant value) params _ _ _ gs t (o_eager o) code _ (k_free _ _ _ _ _ C) EI eq_refl).
  - unfold load. cbn [p_code p_table p]. rewrite EL. cbn [rbind]. reflexivity.
  - constructor; cbn; auto; [lia|].
    intros u tt Hv Hi _. apply (env0_ok value); [exact Hv|]. left. unfold symbols. apply in_or_app; left. apply in_map. exact Hi.
  - intros u (c & v & Hc & Hv & <-) Hn. unfold vals. apply in_or_app; right. apply add_uuids_in. right. apply filter_In.
    split; [|unfold is_constant; destruct (value (storage v)); [reflexivity|congruence]].
    assert (HE : In (ek storage c) (solved (o_memory_solver o) (map (ek storage) l))) by (unfold ek at 1; apply solved_kernels; exact (in_map (ek storage) _ _ Hc)).
    destruct (k_main _ _ _ _ _ C) as (b & fp & Hb & HL & _).
    assert (HK : has_kernel (c_kernel c) (c_name c) (map storage (c_ins c)) (map storage (c_outs c)) gs).
    { destruct (layout_kernel _ _ _ _ HL _ _ _ _ HE) as [[d Hd]|Hk]; [|exact Hk].
      exists (names inst), (b ++ [Return]), d. split; [apply assoc_in; exact Hb|apply in_or_app; auto]. }
    destruct HK as (g & bb & d & Hg & Hd). unfold all_tensors. apply in_flat_map. exists (g, bb). split; [exact Hg|].
    cbn. apply in_flat_map. eexists. split; [exact Hd|]. cbn. apply in_or_app; left. apply in_map. exact Hv.
  - intros x inputs h e1 e2 h2 [R1 R2 R3 R4] HI HA HD.
    destruct (k_main _ _ _ _ _ C) as (b & fp & Hb & HL & _).
    eapply (machine_run nil exec (text (o_eager o) (names inst) (ir storage ins) (ir storage outs) gs) gs prog lp Hlen Hfetch Hlabel Hfrag
       (o_eager o) (names inst) (ir storage ins) (ir storage outs) (frags gs) b fp); eauto.
    unfold ir. rewrite map_length. exact HI.
Qed.

Lemma history_ok : forall solver (l : list kernel_call) (ins outs : list Z) prog vals before,
  reads_newest storage (held0 storage value vals ins) l outs ->
  (forall v t, value (storage v) = Some t -> before v = t) ->
  (solver = true -> forall v, In v outs -> ~ reads storage l (storage v)) ->
  (forall x inputs h e1 e2 h2, ready prog vals (map storage ins) (map storage outs) x -> List.length inputs = List.length ins ->
       assign (i_env x) (map storage ins) inputs = ROk e1 ->
       do_events nil exec (solved solver (map (ek storage) l)) e1 h = ROk (e2, h2) ->
       exists n pc, forall fuel, (n <= fuel)%nat -> run nil exec fuel inputs x h =
         ROk (map e2 (map storage outs), mkInterp prog pc [] e2 (map e2 (map storage outs)), h2)) ->
  forall history x h rs h', ready prog vals (map storage ins) (map storage outs) x ->
  Forall (fun inputs => List.length inputs = List.length ins) history ->
  ((List.length history <= 1)%nat \/ forall u, value u <> None -> ~ makes storage l u /\ (solver = true -> ~ reads storage l u)) ->
  forwards exec before ins l outs history h = ROk (rs, h') ->
  exists n x', (forall fuel, (n <= fuel)%nat -> run_all exec nil fuel history x h = ROk (rs, x', h')) /\
    (solver = true -> history <> [] -> forall l1 c l2 v, l = l1 ++ c :: l2 -> In v (c_ins c) ->
       ~ reads storage l2 (storage v) -> ~ makes storage l2 (storage v) -> i_env x' (storage v) = nil).
Proof.
  intros solver l ins outs prog vals before HR HB HO HRUN.
  induction history as [|inputs more IH]; intros x h rs h' RD HL HH HF.
  - cbn in *. inversion HF; subst. exists 0%nat, x. split; [reflexivity|]. intros _ N; congruence.
  - cbn [forwards] in HF. inversion HL as [|y ys Hi HL' EE]; subst.
    destruct (forward exec before ins l outs inputs h) as [[r h1]| | |] eqn:E1; try discriminate.
    destruct (forwards exec before ins l outs more h1) as [[rs' h2]| | |] eqn:E2; try discriminate. inversion HF; subst. clear HF.
    destruct (one_run nil exec storage value solver l ins outs vals before (i_env x) inputs h r h1 HR Hi HB (r_env _ _ _ _ _ RD) HO E1)
      as (e1 & e2 & EA & ED & ER & EC & EN).
    destruct (HRUN x inputs h e1 e2 h1 RD Hi EA ED) as (n1 & pc & Hn1).
    set (x1 := mkInterp prog pc [] e2 (map e2 (map storage outs))) in *.
    destruct more as [|i2 more].
    + cbn in E2. inversion E2; subst. exists n1, x1. split.
      * intros fuel Hf. cbn [run_all]. rewrite (Hn1 fuel Hf). reflexivity.
      * intros Hs _ l1 c l2 v. cbn. apply EN. exact Hs.
    + assert (ST : forall u, value u <> None -> ~ makes storage l u /\ (solver = true -> ~ reads storage l u)).
      { destruct HH as [HH|HH]; [cbn in HH; lia|exact HH]. }
      assert (RD1 : ready prog vals (map storage ins) (map storage outs) x1).
      { constructor; cbn; auto; [rewrite !map_length; lia|]. intros u t Hv Hin Hni. destruct (ST u) as [S1 S2]; [congruence|].
        rewrite EC by auto. exact (r_env _ _ _ _ _ RD u t Hv Hin Hni). }
      destruct (IH x1 h1 rs' h' RD1 HL' (or_intror ST) E2) as (n2 & x2 & Hn2 & HN2).
      exists (Nat.max n1 n2), x2. split.
      * intros fuel Hf. cbn [run_all]. rewrite (Hn1 fuel ltac:(lia)). cbn [run_all] in Hn2. rewrite (Hn2 fuel ltac:(lia)). rewrite ER. reflexivity.
      * intros Hs _. apply HN2; [exact Hs|discriminate].
Qed.
Lemma compiled_runs : forall o fuel names params inst ins body outs,
  let main := Call inst ins body outs in let l := kernels main in
  well_named names main -> names_consistent l -> o_strict o = false -> (List.length (instances main) <= fuel)%nat ->
  reads_newest storage (at_start storage value ins) l outs ->
  (forall v, In v outs -> value (storage v) <> None -> reads storage l (storage v)) ->
  (o_memory_solver o = true -> forall v, In v outs -> ~ reads storage l (storage v)) ->
  exists p x,
    compile o fuel (is_constant value) (trace storage names params main) = ROk p /\ load nil value p = ROk x /\
    forall before history h rs h',
      (forall v t, value (storage v) = Some t -> before v = t) ->
      Forall (fun inputs => List.length inputs = List.length ins) history ->
      ((List.length history <= 1)%nat \/ forall u, value u <> None -> ~ makes storage l u /\ (o_memory_solver o = true -> ~ reads storage l u)) ->
      forwards exec before ins l outs history h = ROk (rs, h') ->
      exists n x', (forall steps, (n <= steps)%nat -> run_all exec nil steps history x h = ROk (rs, x', h')) /\
        (o_memory_solver o = true -> history <> [] -> forall l1 c l2 v, l = l1 ++ c :: l2 -> In v (c_ins c) ->
           ~ reads storage l2 (storage v) -> ~ makes storage l2 (storage v) -> i_env x' (storage v) = nil).
Proof.
  intros o fuel names params inst ins body outs main l WN NC HST Hf HR HOC HOS.
  destruct (compiled o fuel names params inst ins body outs WN NC HST Hf) as (p & x & prog & vals & E1 & E2 & RD & HV & HRUN).
  exists p, x. split; [exact E1|]. split; [exact E2|]. intros before history h rs h' HB HL HH HF.
  eapply (history_ok (o_memory_solver o) l ins outs prog vals before); eauto.
  eapply reads_newest_mono; [|exact HR]. intros v [Hl|[H1 H2]] Q; [left; exact Hl|]. right. split; [exact H1|]. split; [|exact H2].
  apply HV; [|exact H1]. destruct Q as [Q|(c & Hc & Hv)]; [exact (HOC v Q H1)|exists c, v; auto].
Qed.
End Compiled.
