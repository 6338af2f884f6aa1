(** Proofs for C69-C72, part 3: what the interpreter does with the code of a tree of graphs. *)
From Coq Require Import String DecimalString.
From Verif Require Import Base DTypeModel JitModel JitSpec JitProofs JitCode.
Local Open Scope Z_scope.

Definition pos {A} (l : list A) : Z := Z.of_nat (List.length l).
Lemma pos_app : forall A (a b : list A), pos (a ++ b) = pos a + pos b.
Proof. intros. unfold pos. rewrite app_length. lia. Qed.
Lemma pos_cons : forall A (x : A) b, pos (x :: b) = 1 + pos b.
Proof. intros. unfold pos. cbn [Datatypes.length]. lia. Qed.
Lemma pos_nonneg : forall A (a : list A), 0 <= pos a.
Proof. intros. unfold pos. lia. Qed.
Definition code_of (ops : list op) : list op := filter is_program (map lower ops).
Lemma code_of_app : forall a b, code_of (a ++ b) = code_of a ++ code_of b.
Proof. intros. unfold code_of. rewrite map_app, filter_app. reflexivity. Qed.

Section Machine.
Context {T S : Type} (nil : T) (exec : Z * string -> list T -> S -> res (list T * S)).
Variable L : list op.
Variable gs : list (string * list op).
Variable prog : list (Z * instr).
Variable label_pos : string -> Z.
Definition trans (i : Z) (o : op) : instr :=
  match o with
  | Launch k (Some s) _ ins outs => ILaunch (k, s) ins outs
  | Launch k None _ ins outs => ILaunch (k, ""%string) ins outs
  | Free u => IFree [u]
  | Jump n _ => IJump (label_pos n - i)
  | Ret => IRet
  | Exit => IExit
  | Bind p u b => IBind p u b
  | _ => ISkip
  end.
Hypothesis Hlen : List.length prog = List.length L.
Hypothesis Hfetch : forall l1 o l2, L = l1 ++ o :: l2 -> fetch prog (pos l1) = trans (pos l1) o.
Hypothesis Hlabel : forall l1 n l2, L = l1 ++ Label n :: l2 -> label_pos n = pos l1.
Hypothesis Hfrag : forall n b, assoc gs n = Some b -> exists l1 l2, L = l1 ++ Label (entry n) :: code_of b ++ l2.

Definition at_ (pc : Z) stack e outs : @interp T := mkInterp prog pc stack e outs.
Definition reach (inputs : list T) (x : @interp T) (h : S) (x' : @interp T) (h' : S) : Prop :=
  exists n, forall fuel, run_loop nil exec (n + fuel) inputs x h = run_loop nil exec fuel inputs x' h'.
Lemma reach_refl : forall inputs x h, reach inputs x h x h.
Proof. intros. exists 0%nat. reflexivity. Qed.
Lemma reach_trans : forall inputs x h y h1 z h2, reach inputs x h y h1 -> reach inputs y h1 z h2 -> reach inputs x h z h2.
Proof.
  intros inputs x h y h1 z h2 [n Hn] [m Hm]. exists (n + m)%nat. intros fuel. rewrite <- Nat.add_assoc, Hn. apply Hm.
Qed.
Lemma reach_one : forall inputs x h x' h', exec_instr nil exec inputs x h = ROk (x', h', false) ->
  i_pc x' < Z.of_nat (List.length (i_prog x')) -> reach inputs x h x' h'.
Proof.
  intros inputs x h x' h' E P. exists 1%nat. intros fuel. cbn [Nat.add run_loop]. rewrite E. cbn [rbind].
  apply Z.ltb_lt in P. rewrite P. reflexivity.
Qed.
Lemma in_code : forall l1 l2, L = l1 ++ l2 -> l2 <> [] -> pos l1 < Z.of_nat (List.length prog).
Proof using Hlen. intros l1 l2 E N. rewrite Hlen, E, app_length. clear -N. unfold pos. destruct l2; [congruence|]. cbn [Datatypes.length]. lia. Qed.

Fixpoint do_events (es : list event) (e : Z -> T) (h : S) : res ((Z -> T) * S) :=
  match es with
  | [] => ROk (e, h)
  | EK k n ins outs :: r =>
      do x <- exec (k, n) (map e ins) h;
      do e <- assign e outs (fst x);
      do_events r e (snd x)
  | EF u :: r => do_events r (zset e u nil) h
  end.
Lemma do_events_app : forall a b e h, do_events (a ++ b) e h = (do x <- do_events a e h; do_events b (fst x) (snd x)).
Proof using.
  clear. induction a as [|[k n i o|u] a IH]; intros b e h; cbn; auto.
  destruct (exec (k, n) (map e i) h) as [x| | |]; cbn; auto. destruct (assign e o (fst x)); cbn; auto.
Qed.

Lemma machine : forall ops fp es, layout (assoc gs) ops fp es ->
  forall l1 l2, L = l1 ++ code_of ops ++ l2 -> l2 <> [] ->
  forall inputs stack e outs h e' h', do_events es e h = ROk (e', h') ->
  reach inputs (at_ (pos l1) stack e outs) h (at_ (pos l1 + pos (code_of ops)) stack e' outs) h'.
Proof using All.
  intros ops fp es Ly. induction Ly; intros l1 l2 EL NE inputs stack e outs1 h e' h' D.
  - cbn in D. inversion D; subst. change (code_of []) with (@List.nil op). unfold pos at 3; cbn [Datatypes.length]. rewrite Z.add_0_r.
    apply reach_refl.
  - apply (IHLy l1 l2); assumption.
  - cbn in D. destruct (exec (k, name) (map e ins) h) as [x| | |] eqn:EX; try discriminate. cbn in D.
    destruct (assign e outs (fst x)) as [e1| | |] eqn:EA; try discriminate. cbn in D.
    set (o := Launch k (if String.eqb name "" then None else Some name) None ins outs).
    change (code_of (Linalg k name dev ins outs :: r)) with (o :: code_of r) in *.
    eapply reach_trans.
    + apply (reach_one _ _ _ (at_ (pos l1 + 1) stack e1 outs1) (snd x)).
      * unfold exec_instr, at_; cbn [i_prog i_pc i_stack i_env i_outs].
        rewrite (Hfetch l1 o (code_of r ++ l2) EL). unfold o, trans.
        destruct (String.eqb_spec name "") as [->|N]; rewrite EX; cbn [rbind]; rewrite EA; reflexivity.
      * cbn. replace (pos l1 + 1) with (pos (l1 ++ [o])) by (rewrite pos_app; reflexivity).
        apply in_code with (l2 := code_of r ++ l2); [rewrite EL, <- app_assoc; reflexivity|].
        intros E0. apply app_eq_nil in E0. tauto.
    + specialize (IHLy (l1 ++ [o]) l2). rewrite pos_app in IHLy. change (pos [o]) with 1 in IHLy.
      rewrite pos_cons, Z.add_assoc. apply IHLy; auto. rewrite EL, <- app_assoc. reflexivity.
  - cbn in D.
    change (code_of (TensorFree u :: r)) with (Free u :: code_of r) in *.
    eapply reach_trans.
    + apply (reach_one _ _ _ (at_ (pos l1 + 1) stack (zset e u nil) outs1) h).
      * unfold exec_instr, at_; cbn [i_prog i_pc i_stack i_env i_outs].
        rewrite (Hfetch l1 (Free u) (code_of r ++ l2) EL). reflexivity.
      * cbn. replace (pos l1 + 1) with (pos (l1 ++ [Free u])) by (rewrite pos_app; reflexivity).
        apply in_code with (l2 := code_of r ++ l2); [rewrite EL, <- app_assoc; reflexivity|].
        intros E0. apply app_eq_nil in E0. tauto.
    + specialize (IHLy (l1 ++ [Free u]) l2). rewrite pos_app in IHLy. change (pos [Free u]) with 1 in IHLy.
      rewrite pos_cons, Z.add_assoc. apply IHLy; auto. rewrite EL, <- app_assoc. reflexivity.
  - rewrite do_events_app in D. destruct (do_events es1 e h) as [[e1 h1]| | |] eqn:D1; try discriminate. cbn in D.
    set (o := Jump (entry callee) None).
    change (code_of (CallGraph callee ins outs :: r)) with (o :: code_of r) in *.
    destruct (Hfrag _ _ H) as (f1 & f2 & EF). rewrite code_of_app in EF. change (code_of [Return]) with [Ret] in EF.
    eapply reach_trans; [|eapply reach_trans; [|eapply reach_trans; [|eapply reach_trans]]].
    + apply (reach_one _ _ _ (at_ (pos f1) (pos l1 :: stack) e outs1) h).
      * unfold exec_instr, at_; cbn [i_prog i_pc i_stack i_env i_outs].
        rewrite (Hfetch l1 o (code_of r ++ l2) EL). unfold o, trans. rewrite (Hlabel f1 (entry callee) _ EF).
        replace (pos l1 + (pos f1 - pos l1)) with (pos f1) by lia. reflexivity.
      * cbn. eapply in_code; [exact EF|discriminate].
    + apply (reach_one _ _ _ (at_ (pos f1 + 1) (pos l1 :: stack) e outs1) h).
      * unfold exec_instr, at_; cbn [i_prog i_pc i_stack i_env i_outs].
        rewrite (Hfetch f1 _ _ EF). reflexivity.
      * cbn. replace (pos f1 + 1) with (pos (f1 ++ [Label (entry callee)])) by (rewrite pos_app; reflexivity).
        eapply in_code with (l2 := (code_of b ++ [Ret]) ++ f2); [rewrite EF, <- (app_assoc f1); reflexivity|].
        intros E0. apply app_eq_nil in E0 as [E0 _]. apply app_eq_nil in E0 as [_ E0]. discriminate.
    + specialize (IHLy1 (f1 ++ [Label (entry callee)]) ([Ret] ++ f2)). rewrite pos_app in IHLy1.
      change (pos [Label (entry callee)]) with 1 in IHLy1. apply IHLy1; [|discriminate|exact D1].
      rewrite EF, <- !app_assoc. reflexivity.
    + apply (reach_one _ _ _ (at_ (pos l1 + 1) stack e1 outs1) h1).
      * unfold exec_instr, at_; cbn [i_prog i_pc i_stack i_env i_outs].
        assert (E2 : L = ((f1 ++ [Label (entry callee)]) ++ code_of b) ++ Ret :: f2) by (rewrite EF, <- !app_assoc; reflexivity).
        replace (pos f1 + 1 + pos (code_of b)) with (pos ((f1 ++ [Label (entry callee)]) ++ code_of b)) by (rewrite !pos_app; reflexivity).
        rewrite (Hfetch _ _ _ E2). reflexivity.
      * cbn. replace (pos l1 + 1) with (pos (l1 ++ [o])) by (rewrite pos_app; reflexivity).
        apply in_code with (l2 := code_of r ++ l2); [rewrite EL, <- app_assoc; reflexivity|].
        intros E0. apply app_eq_nil in E0. tauto.
    + specialize (IHLy2 (l1 ++ [o]) l2). rewrite pos_app in IHLy2. change (pos [o]) with 1 in IHLy2.
      rewrite pos_cons, Z.add_assoc. apply IHLy2; auto. rewrite EL, <- app_assoc. reflexivity.
Qed.

(* ---------------- inputs and outputs ---------------- *)
Lemma numbered_app : forall A (a b : list A) i, numbered i (a ++ b) = numbered i a ++ numbered (i + pos a) b.
Proof using.
  clear. induction a as [|x a IH]; intros b i; cbn [numbered app].
  - unfold pos; cbn. rewrite Z.add_0_r. reflexivity.
  - rewrite IH, pos_cons. f_equal. f_equal. f_equal. lia.
Qed.
Lemma bind_inputs : forall ins l1 l2 inputs pre rest stack e outs h e',
  L = l1 ++ map in_bind (numbered (pos pre) ins) ++ l2 -> l2 <> [] -> inputs = pre ++ rest -> List.length rest = List.length ins ->
  assign e ins rest = ROk e' ->
  reach inputs (at_ (pos l1) stack e outs) h (at_ (pos l1 + pos ins) stack e' outs) h.
Proof using All.
  induction ins as [|u ins IH]; intros l1 l2 inputs pre rest stack e outs h e' EL NE EI Hr HA.
  - destruct rest; [|discriminate]. cbn in HA. inversion HA; subst. unfold pos at 3; cbn [Datatypes.length]. rewrite Z.add_0_r. apply reach_refl.
  - destruct rest as [|t rest]; [discriminate|]. cbn [assign] in HA. cbn [numbered map] in EL.
    eapply reach_trans.
    + apply (reach_one _ _ _ (at_ (pos l1 + 1) stack (zset e u t) outs) h).
      * unfold exec_instr, at_; cbn [i_prog i_pc i_stack i_env i_outs].
        rewrite (Hfetch l1 _ _ EL). unfold in_bind, trans; cbn [fst snd].
        unfold pos. rewrite Nat2Z.id, EI, nth_error_app2, Nat.sub_diag by lia. reflexivity.
      * cbn. replace (pos l1 + 1) with (pos (l1 ++ [in_bind (pos pre, u)])) by (rewrite pos_app; reflexivity).
        eapply (in_code _ (map in_bind (numbered (pos pre + 1) ins) ++ l2)); [rewrite EL, <- (app_assoc l1); reflexivity|].
        intros E0. apply app_eq_nil in E0. tauto.
    + rewrite pos_cons, Z.add_assoc.
      specialize (IH (l1 ++ [in_bind (pos pre, u)]) l2 inputs (pre ++ [t]) rest stack (zset e u t) outs h e').
      rewrite !pos_app in IH. change (pos [t]) with 1 in IH. change (pos [in_bind (pos pre, u)]) with 1 in IH. apply IH; auto.
      * rewrite EL, <- app_assoc. reflexivity.
      * rewrite EI, <- app_assoc. reflexivity.
Qed.
Lemma set_out_skip : forall (l : list T) p t, skipn p (set_out nil l (Z.of_nat p) t) = t :: skipn (Datatypes.S p) l.
Proof using.
  clear. intros l p t. unfold set_out. rewrite Nat2Z.id. replace (Z.to_nat (Z.of_nat p + 1)) with (Datatypes.S p) by lia.
  set (l' := l ++ repeat nil (Datatypes.S p - List.length l)).
  assert (Hl : (Datatypes.S p <= List.length l')%nat) by (unfold l'; rewrite app_length, repeat_length; lia).
  assert (Hf : List.length (firstn p l') = p) by (rewrite firstn_length; lia).
  rewrite skipn_app, Hf, Nat.sub_diag, skipn_O. rewrite skipn_all2 by lia. cbn [app].
  f_equal. unfold l'. rewrite skipn_app. rewrite (skipn_all2 (repeat _ _)) by (rewrite repeat_length; lia). apply app_nil_r.
Qed.
Lemma bind_outputs : forall us l1 l2 inputs stack (e : Z -> T) outs h,
  L = l1 ++ rev (map out_bind (numbered 0 us)) ++ l2 -> l2 <> [] ->
  reach inputs (at_ (pos l1) stack e outs) h
    (at_ (pos l1 + pos us) stack e (map e us ++ skipn (List.length us) outs)) h.
Proof using All.
  induction us as [|u us IH] using rev_ind; intros l1 l2 inputs stack e outs h EL NE.
  - unfold pos at 3; cbn [Datatypes.length map app skipn]. rewrite Z.add_0_r. apply reach_refl.
  - rewrite numbered_app, map_app, rev_app_distr in EL. cbn [numbered map rev app] in EL.
    rewrite Z.add_0_l in EL.
    eapply reach_trans.
    + apply (reach_one _ _ _ (at_ (pos l1 + 1) stack e (set_out nil outs (pos us) (e u))) h).
      * unfold exec_instr, at_; cbn [i_prog i_pc i_stack i_env i_outs].
        rewrite (Hfetch l1 _ _ EL). reflexivity.
      * cbn. replace (pos l1 + 1) with (pos (l1 ++ [out_bind (pos us, u)])) by (rewrite pos_app; reflexivity).
        eapply (in_code _ (rev (map out_bind (numbered 0 us)) ++ l2)); [rewrite EL, <- (app_assoc l1); reflexivity|].
        intros E0. apply app_eq_nil in E0. tauto.
    + specialize (IH (l1 ++ [out_bind (pos us, u)]) l2 inputs stack e (set_out nil outs (pos us) (e u)) h).
      rewrite pos_app in IH. change (pos [out_bind (pos us, u)]) with 1 in IH.
      rewrite pos_app. change (pos [u]) with 1. replace (pos l1 + (pos us + 1)) with (pos l1 + 1 + pos us) by lia.
      unfold pos in IH at 4. rewrite set_out_skip in IH.
      rewrite map_app, <- app_assoc. cbn [map app]. rewrite app_length. cbn [Datatypes.length]. rewrite Nat.add_1_r.
      apply IH; auto. rewrite EL, <- app_assoc. reflexivity.
Qed.

Lemma machine_run : forall (eager : bool) main ins outs tail b fp es,
  L = (if eager then [ModeConfig] else []) ++ main_code main ins outs ++ tail ->
  assoc gs main = Some (b ++ [Return]) -> layout (assoc gs) b fp es ->
  forall x inputs h e1 e2 h2, i_prog x = prog -> i_stack x = [] -> (List.length (i_outs x) <= List.length outs)%nat ->
  List.length inputs = List.length ins -> assign (i_env x) ins inputs = ROk e1 -> do_events es e1 h = ROk (e2, h2) ->
  exists n pc, forall fuel, (n <= fuel)%nat ->
    run nil exec fuel inputs x h = ROk (map e2 outs, mkInterp prog pc [] e2 (map e2 outs), h2).
Proof using All.
  intros eager main ins outs tail b fp es EL HM HL x inputs h e1 e2 h2 HP HS HO HI HA HD.
  set (l0 := if eager then [ModeConfig] else []) in *. unfold main_code in EL.
  destruct (Hfrag _ _ HM) as (f1 & f2 & EF). rewrite code_of_app in EF. change (code_of [Return]) with [Ret] in EF.
  set (o1 := map in_bind (numbered 0 ins)) in *. set (o2 := rev (map out_bind (numbered 0 outs))) in *.
  assert (Po1 : pos o1 = pos ins).
  { unfold o1, pos. rewrite map_length. f_equal. clear. generalize 0. induction ins; intros z; cbn; auto. }
  assert (E1 : L = l0 ++ o1 ++ ([Jump (entry main) None] ++ o2 ++ [Exit] ++ tail)) by (rewrite EL, <- !app_assoc; reflexivity).
  assert (E2 : L = (l0 ++ o1) ++ Jump (entry main) None :: o2 ++ [Exit] ++ tail) by (rewrite E1, <- !app_assoc; reflexivity).
  assert (E3 : L = ((l0 ++ o1) ++ [Jump (entry main) None]) ++ o2 ++ [Exit] ++ tail) by (rewrite E2, <- !app_assoc; reflexivity).
  assert (E4 : L = (((l0 ++ o1) ++ [Jump (entry main) None]) ++ o2) ++ Exit :: tail) by (rewrite E3, <- !app_assoc; reflexivity).
  assert (R0 : reach inputs (at_ 0 [] (i_env x) (i_outs x)) h (at_ (pos l0) [] (i_env x) (i_outs x)) h).
  { unfold l0 in *. destruct eager; [|apply reach_refl].
    apply reach_one.
    - unfold exec_instr, at_; cbn [i_prog i_pc i_stack i_env i_outs]. change 0 with (pos (@List.nil op)).
      rewrite (Hfetch [] ModeConfig _ EL). reflexivity.
    - cbn. eapply (in_code [ModeConfig]); [exact E1|]. intros E0. apply app_eq_nil in E0 as [_ E0]. discriminate. }
  assert (R1 : reach inputs (at_ (pos l0) [] (i_env x) (i_outs x)) h (at_ (pos l0 + pos ins) [] e1 (i_outs x)) h).
  { eapply (bind_inputs ins l0 _ inputs [] inputs); [exact E1|discriminate|reflexivity|exact HI|exact HA]. }
  assert (R2 : reach inputs (at_ (pos l0 + pos ins) [] e1 (i_outs x)) h (at_ (pos f1) [pos (l0 ++ o1)] e1 (i_outs x)) h).
  { apply reach_one.
    - unfold exec_instr, at_; cbn [i_prog i_pc i_stack i_env i_outs].
      replace (pos l0 + pos ins) with (pos (l0 ++ o1)) by (rewrite pos_app; lia).
      rewrite (Hfetch _ _ _ E2). unfold trans. rewrite (Hlabel f1 _ _ EF).
      replace (pos (l0 ++ o1) + (pos f1 - pos (l0 ++ o1))) with (pos f1) by lia. reflexivity.
    - cbn. eapply in_code; [exact EF|discriminate]. }
  assert (R3 : reach inputs (at_ (pos f1) [pos (l0 ++ o1)] e1 (i_outs x)) h (at_ (pos f1 + 1) [pos (l0 ++ o1)] e1 (i_outs x)) h).
  { apply reach_one.
    - unfold exec_instr, at_; cbn [i_prog i_pc i_stack i_env i_outs]. rewrite (Hfetch f1 _ _ EF). reflexivity.
    - cbn. replace (pos f1 + 1) with (pos (f1 ++ [Label (entry main)])) by (rewrite pos_app; reflexivity).
      eapply in_code with (l2 := (code_of b ++ [Ret]) ++ f2); [rewrite EF, <- (app_assoc f1); reflexivity|].
      intros E0. apply app_eq_nil in E0 as [E0 _]. apply app_eq_nil in E0 as [_ E0]. discriminate. }
  assert (R4 : reach inputs (at_ (pos f1 + 1) [pos (l0 ++ o1)] e1 (i_outs x)) h
                (at_ (pos f1 + 1 + pos (code_of b)) [pos (l0 ++ o1)] e2 (i_outs x)) h2).
  { replace (pos f1 + 1) with (pos (f1 ++ [Label (entry main)])) by (rewrite pos_app; reflexivity).
    eapply (machine _ _ _ HL _ ([Ret] ++ f2)); [|discriminate|exact HD]. rewrite EF, <- (app_assoc f1), <- (app_assoc (code_of b)). reflexivity. }
  assert (R5 : reach inputs (at_ (pos f1 + 1 + pos (code_of b)) [pos (l0 ++ o1)] e2 (i_outs x)) h2
                (at_ (pos ((l0 ++ o1) ++ [Jump (entry main) None])) [] e2 (i_outs x)) h2).
  { apply reach_one.
    - unfold exec_instr, at_; cbn [i_prog i_pc i_stack i_env i_outs].
      assert (E5 : L = ((f1 ++ [Label (entry main)]) ++ code_of b) ++ Ret :: f2) by (rewrite EF, <- !app_assoc; reflexivity).
      replace (pos f1 + 1 + pos (code_of b)) with (pos ((f1 ++ [Label (entry main)]) ++ code_of b)) by (rewrite !pos_app; reflexivity).
      rewrite (Hfetch _ _ _ E5). unfold trans. rewrite (pos_app _ (l0 ++ o1)). reflexivity.
    - cbn. eapply in_code; [exact E3|]. intros E0. apply app_eq_nil in E0 as [_ E0]. discriminate. }
  assert (NEx : [Exit] ++ tail <> []) by discriminate.
  assert (R6 := bind_outputs outs ((l0 ++ o1) ++ [Jump (entry main) None]) ([Exit] ++ tail) inputs [] e2 (i_outs x) h2 E3 NEx).
  rewrite skipn_all2, app_nil_r in R6 by assumption.
  assert (Po2 : pos o2 = pos outs).
  { unfold o2, pos. rewrite rev_length, map_length. f_equal. clear. generalize 0. induction outs; intros z; cbn; auto. }
  rewrite <- Po2, <- pos_app in R6.
  pose proof (reach_trans _ _ _ _ _ _ _ R0 (reach_trans _ _ _ _ _ _ _ R1 (reach_trans _ _ _ _ _ _ _ R2 (reach_trans _ _ _ _ _ _ _ R3
    (reach_trans _ _ _ _ _ _ _ R4 (reach_trans _ _ _ _ _ _ _ R5 R6)))))) as [n Hn].
  exists (n + 1)%nat, (pos (((l0 ++ o1) ++ [Jump (entry main) None]) ++ o2)).
  intros fuel Hf. unfold run. rewrite HP, HS. fold (at_ 0 [] (i_env x) (i_outs x)).
  replace fuel with (n + Datatypes.S (fuel - n - 1))%nat by lia. rewrite Hn. cbn [run_loop].
  match goal with |- context [exec_instr nil exec inputs ?y h2] =>
    assert (EE : exec_instr nil exec inputs y h2 = ROk (y, h2, true))
      by (unfold exec_instr, at_; cbn [i_prog i_pc i_stack i_env i_outs]; rewrite (Hfetch _ _ _ E4); reflexivity); rewrite EE end.
  reflexivity.
Qed.
End Machine.
