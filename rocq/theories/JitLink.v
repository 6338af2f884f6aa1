(** Proofs for C69-C72, part 4: numbering, jumps and the symbol table. *)
From Coq Require Import String DecimalString.
From Verif Require Import Base DTypeModel JitModel JitSpec JitProofs JitCode JitMachine.
Local Open Scope Z_scope.

Lemma number_ops_ok : forall code i, number_ops i code = numbered i (filter is_program code).
Proof. induction code as [|o code IH]; intros i; cbn; [reflexivity|]. destruct (is_program o); cbn; rewrite IH; reflexivity. Qed.
Fixpoint labels (i : Z) (L : list op) : list (string * Z) :=
  match L with [] => [] | Label n :: r => (n, i) :: labels (i + 1) r | _ :: r => labels (i + 1) r end.
Lemma labels_app : forall a b i, labels i (a ++ b) = labels i a ++ labels (i + pos a) b.
Proof.
  induction a as [|o a IH]; intros b i; cbn [app labels].
  - unfold pos; cbn. rewrite Z.add_0_r. reflexivity.
  - rewrite pos_cons. replace (i + (1 + pos a)) with (i + 1 + pos a) by lia. destruct o; rewrite IH; reflexivity.
Qed.
Lemma label_ids_ok : forall L i acc, NoDup (map fst acc ++ map fst (labels i L)) ->
  label_ids (numbered i L) acc = ROk (acc ++ labels i L).
Proof.
  assert (P : forall n (acc : list (string * Z)), ~ In n (map fst acc) -> existsb (fun p => String.eqb (fst p) n) acc = false).
  { intros n acc. induction acc as [|[m x] acc IH]; cbn; intros H; [reflexivity|].
    destruct (String.eqb_spec m n); [subst; tauto|]. cbn. apply IH. tauto. }
  induction L as [|o L IH]; intros i acc ND; cbn [numbered label_ids labels].
  - rewrite app_nil_r. reflexivity.
  - destruct o; cbn [labels] in ND; try (apply IH; assumption).
    rewrite P.
    + rewrite IH.
      * rewrite <- app_assoc. reflexivity.
      * rewrite map_app, <- app_assoc. exact ND.
    + cbn in ND. apply NoDup_remove_2 in ND. intros H; apply ND. apply in_or_app; auto.
Qed.
Lemma label_id_ok : forall L l1 n l2, L = l1 ++ Label n :: l2 -> NoDup (map fst (labels 0 L)) -> label_id (labels 0 L) n = Some (pos l1).
Proof.
  intros L l1 n l2 -> ND. rewrite labels_app in *. cbn [labels] in *. rewrite map_app in ND. cbn [map fst] in ND.
  apply NoDup_remove_2 in ND. unfold label_id.
  assert (E : forall (a b : list (string * Z)) x, ~ In n (map fst a) -> find (fun p => String.eqb (fst p) n) (a ++ (n, x) :: b) = Some (n, x)).
  { clear. induction a as [|[m y] a IH]; cbn; intros b x H; [rewrite String.eqb_refl; reflexivity|].
    destruct (String.eqb_spec m n); [subst; tauto|]. apply IH. tauto. }
  rewrite E; [reflexivity|]. intros H; apply ND; apply in_or_app; auto.
Qed.
Lemma label_id_some : forall t n, In n (map fst t) -> exists j, label_id t n = Some j.
Proof.
  intros t n H. unfold label_id. induction t as [|[m x] t IH]; cbn in *; [destruct H|].
  destruct (String.eqb_spec m n); [eexists; reflexivity|]. apply IH. tauto.
Qed.
Definition resolve1 (t : list (string * Z)) (p : Z * op) : Z * op :=
  match snd p with Jump n _ => (fst p, Jump n (match label_id t n with Some j => Some (j - fst p) | None => None end)) | _ => p end.
Lemma resolve_ok : forall t l, (forall i n x, In (i, Jump n x) l -> In n (map fst t)) -> resolve t l = ROk (map (resolve1 t) l).
Proof.
  induction l as [|[i o] l IH]; intros H; cbn; [reflexivity|].
  rewrite IH by (intros; eapply H; right; eassumption).
  destruct o; try reflexivity. destruct (label_id_some t label (H _ _ _ (or_introl eq_refl))) as [j Hj].
  unfold resolve1; cbn. rewrite Hj. reflexivity.
Qed.
Lemma load_code_ok : forall table f l, (forall i o, In (i, o) l -> load_instr table o = ROk (f o)) ->
  load_code table l = ROk (map (fun p => (fst p, f (snd p))) l).
Proof.
  induction l as [|[i o] l IH]; intros H; cbn; [reflexivity|].
  rewrite (H i o (or_introl eq_refl)). cbn. rewrite IH by (intros; eapply H; right; eassumption). reflexivity.
Qed.
Lemma find_numbered : forall (F : Z * op -> instr) l i l1 o l2, l = l1 ++ o :: l2 ->
  find (fun x => fst x =? i + pos l1) (map (fun p => (fst p, F p)) (numbered i l)) = Some (i + pos l1, F (i + pos l1, o)).
Proof.
  intros F l i l1 o l2 ->. revert i. induction l1 as [|x l1 IH]; intros i; cbn [app numbered map find fst].
  - unfold pos; cbn. rewrite Z.add_0_r, Z.eqb_refl. reflexivity.
  - rewrite pos_cons. pose proof (pos_nonneg _ l1). destruct (Z.eqb_spec i (i + (1 + pos l1))); [lia|].
    replace (i + (1 + pos l1)) with (i + 1 + pos l1) by lia. apply IH.
Qed.

(* ---------------- the symbol table ---------------- *)
Definition kernel_of (o : op) (n : string) (k : Z) : Prop := exists d i u, o = Launch k (Some n) d i u.
Lemma last_launch_ok : forall code n k, (exists o, In o code /\ kernel_of o n k) ->
  (forall o k', In o code -> kernel_of o n k' -> k' = k) -> last_launch code n = k.
Proof.
  intros code n k. unfold last_launch.
  assert (G : forall code a, (forall o k', In o code -> kernel_of o n k' -> k' = k) -> (a = k \/ exists o, In o code /\ kernel_of o n k) ->
    fold_left (fun acc o => match o with Launch k (Some n0) _ _ _ => if String.eqb n0 n then k else acc | _ => acc end) code a = k).
  { clear. induction code as [|o code IH]; intros a U H; cbn.
    - destruct H as [H|[o [[] _]]]; exact H.
    - apply IH; [intros; eapply U; [right; eassumption|eassumption]|].
      destruct H as [->|(o' & [<-|Hi] & Hk)].
      + left. destruct o as [| | | | | | |k' [s|] d i u| | | | | | | | |]; try reflexivity.
        destruct (String.eqb_spec s n) as [->|]; [|reflexivity].
        eapply U; [left; reflexivity|]. exists d, i, u. reflexivity.
      + left. destruct Hk as (d & i & u & ->). rewrite String.eqb_refl. reflexivity.
      + right. exists o'. auto. }
  intros H U. apply G; auto.
Qed.
Lemma link_ok : forall code vals t n, In n t -> link (symbols code vals t) n = ROk (last_launch code n, n).
Proof.
  intros code vals t n H. unfold link, symbols. rewrite rev_app_distr.
  assert (E : forall r, find (fun o => match o with KernelSymbol m _ => String.eqb m n | _ => false end)
       (rev (map (fun n0 => KernelSymbol n0 (last_launch code n0)) t) ++ r) = Some (KernelSymbol n (last_launch code n))).
  { intros r. rewrite <- map_rev. apply in_rev in H. induction (rev t) as [|m l IH]; cbn; [destruct H|].
    destruct (String.eqb_spec m n) as [->|N]; [reflexivity|]. apply IH. destruct H; [congruence|assumption]. }
  rewrite E. reflexivity.
Qed.

(* ---------------- program text ---------------- *)
Definition frags (gs : list (string * list op)) : list op := flat_map (fun g => Label (entry (fst g)) :: code_of (snd g)) gs.
Definition text (eager : bool) main ins outs gs : list op := (if eager then [ModeConfig] else []) ++ main_code main ins outs ++ frags gs.
Lemma main_code_program : forall main ins outs, Forall (fun o => is_program o = true) (main_code main ins outs).
Proof.
  intros. unfold main_code. apply Forall_app; split; [|apply Forall_app; split; [|apply Forall_app; split]].
  - apply Forall_forall. intros o Ho. apply in_map_iff in Ho as (p & <- & _). reflexivity.
  - constructor; [reflexivity|constructor].
  - apply Forall_rev, Forall_forall. intros o Ho. apply in_map_iff in Ho as (p & <- & _). reflexivity.
  - constructor; [reflexivity|constructor].
Qed.
Lemma filter_all : forall A (f : A -> bool) l, Forall (fun x => f x = true) l -> filter f l = l.
Proof. induction 1 as [|x l H H0 IH]; cbn; [reflexivity|]. rewrite H, IH. reflexivity. Qed.
Lemma text_ok : forall eager main ins outs gs, filter is_program (full_code eager main ins outs gs) = text eager main ins outs gs.
Proof.
  intros. unfold full_code, text. rewrite !filter_app, (filter_all _ _ _ (main_code_program _ _ _)).
  f_equal; [destruct eager; reflexivity|]. f_equal. unfold frag_code, frags.
  induction gs as [|[n b] gs IH]; cbn; [reflexivity|]. rewrite filter_app, IH. reflexivity.
Qed.
Definition good_op (names : list string) (es : list event) (o : op) : Prop :=
  match o with Linalg k n _ ins outs => In (EK k n ins outs) es | TensorFree u => In (EF u) es
     | CallGraph c _ _ => In c names | Comment | Return => True | _ => False end.
Lemma canon_good : forall names es main t gs, canon names es main t gs -> forall g b o, In (g, b) gs -> In o b -> good_op names es o.
Proof.
  intros names es main t gs [H1 H2 H3 (b0 & fp & H4 & H5 & H6) H7] g b o Hg Ho.
  assert (ND : NoDup (map fst gs)) by (rewrite H1; exact H2).
  destruct (layout_complete _ _ _ _ H5 ND) as [A B].
  assert (Hn : In g names) by (rewrite <- H1; apply in_map_iff; exists (g, b); auto).
  rewrite H6 in Hn. destruct Hn as [<-|Hn].
  - assert (b = b0 ++ [Return]) as ->.
    { apply assoc_in in H4. clear - ND Hg H4. induction gs as [|[n x] r IH]; cbn in *; [destruct Hg|].
      inversion ND as [|y l Hni ND' EE]; subst. destruct Hg as [E1|Hg], H4 as [E2|H4].
      - congruence.
      - inversion E1; subst. exfalso; apply Hni. apply in_map_iff. eexists (main, _); split; [reflexivity|exact H4].
      - inversion E2; subst. exfalso; apply Hni. apply in_map_iff. eexists (main, _); split; [reflexivity|exact Hg].
      - apply IH; assumption. }
    apply in_app_or in Ho as [Ho|[<-|[]]]; [|exact I]. specialize (A o Ho). destruct o; cbn; auto. rewrite H6; right; exact A.
  - specialize (B g b o Hn Hg Ho). destruct o; cbn; auto. rewrite H6; right; exact B.
Qed.
Lemma labels_none : forall l i, (forall o, In o l -> match o with Label _ => False | _ => True end) -> labels i l = [].
Proof.
  induction l as [|o l IH]; intros i H; cbn; [reflexivity|]. pose proof (H o (or_introl eq_refl)).
  destruct o; try contradiction; apply IH; intros; apply H; right; assumption.
Qed.
Lemma in_code_of : forall o b, In o (code_of b) -> exists p, In p b /\ o = lower p.
Proof. intros o b H. unfold code_of in H. apply filter_In in H as [H _]. apply in_map_iff in H as (p & <- & Hp). exists p; auto. Qed.
Lemma in_main_code : forall o main ins outs, In o (main_code main ins outs) ->
  o = Jump (entry main) None \/ o = Exit \/ (exists p u b, o = Bind p u b).
Proof.
  intros o main ins outs H. unfold main_code in H. apply in_app_or in H as [H|H].
  { apply in_map_iff in H as (p & <- & _). right; right. unfold in_bind. eauto. }
  apply in_app_or in H as [[<-|[]]|H]; [auto|]. apply in_app_or in H as [H|[<-|[]]]; [|auto].
  apply in_rev in H. apply in_map_iff in H as (p & <- & _). right; right. unfold out_bind. eauto.
Qed.
Lemma entry_inj : forall a b, entry a = entry b -> a = b.
Proof.
  unfold entry. intros a b. revert b. induction a as [|c a IH]; intros [|d b]; cbn; intros E; auto.
  - exfalso. apply (f_equal String.length) in E. revert E. cbn.
    assert (L : forall s t, String.length (s ++ t) = (String.length s + String.length t)%nat).
    { induction s; intros; cbn; auto. }
    rewrite L. cbn. lia.
  - exfalso. apply (f_equal String.length) in E. revert E. cbn.
    assert (L : forall s t, String.length (s ++ t) = (String.length s + String.length t)%nat).
    { induction s; intros; cbn; auto. }
    rewrite L. cbn. lia.
  - inversion E; subst. f_equal. apply IH; assumption.
Qed.
Definition consistent (es : list event) : Prop :=
  forall k k' n i o i' o', In (EK k n i o) es -> In (EK k' n i' o') es -> n <> ""%string -> k = k'.

Lemma labels_text : forall eager main ins outs gs names es t, canon names es main t gs ->
  map fst (labels 0 (text eager main ins outs gs)) = map entry names.
Proof.
  intros eager main ins outs gs names es t C. unfold text.
  assert (E0 : labels 0 (if eager then [ModeConfig] else []) = []) by (destruct eager; reflexivity).
  rewrite !labels_app, E0. rewrite (labels_none (main_code main ins outs)).
  2: { intros o Ho. destruct (in_main_code _ _ _ _ Ho) as [->|[->|(p & u & b & ->)]]; exact I. }
  cbn [app]. rewrite <- (k_names _ _ _ _ _ C). pose proof (canon_good _ _ _ _ _ C) as G. clear C.
  match goal with |- context [labels ?z _] => generalize z end.
  induction gs as [|[n b] gs IH]; intros z; cbn; [reflexivity|]. f_equal.
  rewrite labels_app, labels_none.
  - cbn [app]. apply IH. intros; eapply G; [right|]; eassumption.
  - intros o Ho. apply in_code_of in Ho as (p & Hp & ->). specialize (G n b p (or_introl eq_refl) Hp). destruct p; try contradiction; exact I.
Qed.

Lemma numbered_in : forall A (l : list A) z i o, In (i, o) (numbered z l) -> In o l.
Proof. induction l as [|x l IH]; intros z i o; cbn; [tauto|]. intros [E|H]; [inversion E; auto|right; eapply IH; eassumption]. Qed.
Lemma numbered_length : forall A (l : list A) z, List.length (numbered z l) = List.length l.
Proof. induction l; intros z; cbn; auto. Qed.
Lemma linked : forall names es main t gs eager ins outs vals, canon names es main t gs -> consistent es ->
  exists code prog label_pos,
    index_program (full_code eager main ins outs gs) = ROk code /\
    load_code (symbols (main_code main ins outs ++ frag_code gs) vals t) code = ROk prog /\
    (let L := text eager main ins outs gs in
     List.length prog = List.length L /\
     (forall l1 o l2, L = l1 ++ o :: l2 -> fetch prog (pos l1) = trans label_pos (pos l1) o) /\
     (forall l1 n l2, L = l1 ++ Label n :: l2 -> label_pos n = pos l1) /\
     (forall n b, assoc gs n = Some b -> exists l1 l2, L = l1 ++ Label (entry n) :: code_of b ++ l2)).
Proof.
  intros names es main t gs eager ins outs vals C HC.
  set (L := text eager main ins outs gs).
  assert (LT : map fst (labels 0 L) = map entry names) by (eapply labels_text; eassumption).
  assert (ND : NoDup (map fst (labels 0 L))).
  { rewrite LT. apply FinFun.Injective_map_NoDup; [exact entry_inj|]. exact (k_nodup _ _ _ _ _ C). }
  pose proof (canon_good _ _ _ _ _ C) as G.
  set (lt := labels 0 L) in *.
  set (label_pos := fun n => match label_id lt n with Some j => j | None => 0 end).
  assert (IL : forall o, In o L -> (exists n b p, In (n, b) gs /\ In p b /\ o = lower p /\ is_program o = true) \/ (exists n, o = Label n) \/
                o = ModeConfig \/ o = Jump (entry main) None \/ o = Exit \/ (exists p u b, o = Bind p u b)).
  { intros o Ho. unfold L, text in Ho. apply in_app_or in Ho as [Ho|Ho].
    { destruct eager; [|destruct Ho]. destruct Ho as [<-|[]]. auto. }
    apply in_app_or in Ho as [Ho|Ho].
    { destruct (in_main_code _ _ _ _ Ho) as [->|[->|H]]; auto 6. }
    unfold frags in Ho. apply in_flat_map in Ho as ([n b] & Hg & Ho). cbn in Ho. destruct Ho as [<-|Ho]; [right; left; eauto|].
    left. unfold code_of in Ho. apply filter_In in Ho as [Ho Hp]. apply in_map_iff in Ho as (p & <- & Hi). exists n, b, p. auto. }
  assert (Hmain : In main names). { destruct (k_main _ _ _ _ _ C) as (b & fp & _ & _ & E). rewrite E. left; reflexivity. }
  assert (NL : forall i o, In (i, o) (numbered 0 L) -> In o L).
  { intros i o. apply numbered_in. }
  set (prog := map (fun p => (fst p, trans label_pos (fst p) (snd p))) (numbered 0 L)).
  exists (map (resolve1 lt) (numbered 0 L)), prog, label_pos.
  split.
  { unfold index_program. rewrite number_ops_ok, text_ok. fold L.
    rewrite label_ids_ok by exact ND. cbn [app rbind]. apply resolve_ok.
    intros i n x Hi. apply NL in Hi. fold lt. rewrite LT.
    destruct (IL _ Hi) as [(m & b & p & Hg & Hp & E & _)|[(m & E)|[E|[E|[E|(p & u & b & E)]]]]]; try discriminate.
    - specialize (G _ _ _ Hg Hp). destruct p; try discriminate; try contradiction. inversion E; subst. apply in_map. exact G.
    - inversion E; subst. apply in_map. exact Hmain. }
  split.
  { assert (E : forall l, (forall i o, In (i, o) l -> In o L) ->
       load_code (symbols (main_code main ins outs ++ frag_code gs) vals t) (map (resolve1 lt) l) =
       ROk (map (fun p => (fst p, trans label_pos (fst p) (snd p))) l)).
    { induction l as [|[i o] l IH]; intros H; [reflexivity|]. cbn [map].
      assert (E1 : load_instr (symbols (main_code main ins outs ++ frag_code gs) vals t) (snd (resolve1 lt (i, o))) = ROk (trans label_pos i o)).
      { pose proof (H i o (or_introl eq_refl)) as Ho. specialize (IL _ Ho).
        destruct o as [| | | | | | |k [s|] d ii oo|u|n|n off| | |p u b| | |]; try reflexivity.
        - unfold resolve1; cbn [snd fst load_instr trans].
          destruct IL as [(m & b & p & Hg & Hp & E & _)|[(m & E)|[E|[E|[E|(p & u & b & E)]]]]]; try discriminate.
          pose proof (G _ _ _ Hg Hp) as Gp. destruct p as [k' s' d' i' o'| | | | | | | | | | | | | | | |]; try discriminate; try contradiction.
          cbn in E. destruct (String.eqb_spec s' "") as [->|N]; [discriminate|]. inversion E; subst. cbn in Gp.
          rewrite link_ok by (eapply (k_table _ _ _ _ _ C); eassumption). cbn [rbind].
          rewrite (last_launch_ok _ _ k'); [reflexivity| |].
          + exists (lower (Linalg k' s' d' i' o')). split.
            * apply in_or_app; right. unfold frag_code. apply in_flat_map. exists (m, b). split; [exact Hg|]. right. exact (in_map lower b _ Hp).
            * cbn. apply String.eqb_neq in N. rewrite N. exists None, i', o'. reflexivity.
          + intros o k'' Hin (d & i2 & u & ->). apply in_app_or in Hin as [Hin|Hin].
            * destruct (in_main_code _ _ _ _ Hin) as [E2|[E2|(p & u2 & b2 & E2)]]; discriminate.
            * unfold frag_code in Hin. apply in_flat_map in Hin as ([m2 b2] & Hg2 & [E2|Hi2]); [discriminate|].
              cbn in Hi2. apply in_map_iff in Hi2 as (p & E2 & Hp2). pose proof (G _ _ _ Hg2 Hp2) as Gp2.
              destruct p as [k2 s2 d2 i3 o3| | | | | | | | | | | | | | | |]; try discriminate; try contradiction.
              cbn in E2. destruct (String.eqb_spec s2 "") as [->|N2]; [discriminate|]. inversion E2; subst. cbn in Gp2.
              eapply HC; eassumption.
        - unfold resolve1; cbn [snd fst]. unfold label_pos.
          assert (Hn : In n (map fst lt)).
          { rewrite LT. destruct IL as [(m & b & p & Hg & Hp & E & _)|[(m & E)|[E|[E|[E|(p & u & b & E)]]]]]; try discriminate.
            - specialize (G _ _ _ Hg Hp). destruct p; try discriminate; try contradiction. inversion E; subst. apply in_map. exact G.
            - inversion E; subst. apply in_map. exact Hmain. }
          destruct (label_id_some lt n Hn) as [j Hj]. unfold trans. rewrite Hj. reflexivity. }
      destruct (resolve1 lt (i, o)) as [i1 o1] eqn:ER.
      assert (i1 = i) as ->. { unfold resolve1 in ER. cbn in ER. destruct o; inversion ER; reflexivity. }
      cbn [load_code]. cbn [snd] in E1. rewrite E1. cbn [rbind].
      rewrite IH by (intros; eapply H; right; eassumption). reflexivity. }
    apply E. exact (NL). }
  cbv zeta. fold L. split; [|split; [|split]].
  - unfold prog. rewrite map_length. apply numbered_length.
  - intros l1 o l2 EL. unfold fetch, prog. pose proof (find_numbered (fun p => trans label_pos (fst p) (snd p)) L 0 l1 o l2 EL) as F.
    cbn [Z.add] in F. rewrite F. reflexivity.
  - intros l1 n l2 EL. unfold label_pos. pose proof (label_id_ok L l1 n l2 EL ND) as Q. fold lt in Q. rewrite Q. reflexivity.
  - intros n b Hb. apply assoc_in in Hb. apply in_split in Hb as (g1 & g2 & Eg).
    unfold L, text, frags. rewrite Eg, flat_map_app. cbn [flat_map fst snd].
    exists (((if eager then [ModeConfig] else []) ++ main_code main ins outs) ++ flat_map (fun g => Label (entry (fst g)) :: code_of (snd g)) g1),
      (flat_map (fun g => Label (entry (fst g)) :: code_of (snd g)) g2). rewrite <- !app_assoc. reflexivity.
Qed.
