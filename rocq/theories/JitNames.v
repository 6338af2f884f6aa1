(** Proofs for C71: names of graphs when instances share a name. *)
From Coq Require Import String DecimalString DecimalNat DecimalN Ascii.
From Verif Require Import Base DTypeModel JitModel JitSpec JitProofs.
Local Open Scope Z_scope.

Fixpoint name_all (l : list Z) (st : naming) : list string * naming :=
  match l with
  | [] => ([], st)
  | i :: r => let '(n, st) := unique_name i st in let '(ns, st) := name_all r st in (n :: ns, st)
  end.
Lemma name_all_app l1 l2 st :
  name_all (l1 ++ l2) st = let '(a, st) := name_all l1 st in let '(b, st) := name_all l2 st in (a ++ b, st).
Proof.
  revert st; induction l1 as [|i r IH]; intro st; cbn [app name_all].
  - destruct (name_all l2 st); reflexivity.
  - destruct (unique_name i st) as [n s1]. rewrite IH. destruct (name_all r s1) as [a s2]. destruct (name_all l2 s2) as [b s3]. reflexivity.
Qed.
Lemma trace_names uuid : forall s st,
  let '(_, gs, st') := trace_step uuid s st in name_all (instances s) st = (map fst gs, st').
Proof.
  apply (step_ind' (fun s => forall st, let '(_, gs, st') := trace_step uuid s st in name_all (instances s) st = (map fst gs, st'))).
  - intros; reflexivity.
  - intros; reflexivity.
  - intros inst ins body outs HF st. rewrite trace_step_call. cbn [instances name_all].
    destruct (unique_name inst st) as [n s1].
    assert (E : forall st, let '(_, gs, st') := trace_steps uuid body st in name_all (flat_map instances body) st = (map fst gs, st')).
    { clear s1 n st. induction HF as [|s r Hs HF IH]; intro st; cbn [trace_steps flat_map]; [reflexivity|].
      specialize (Hs st). destruct (trace_step uuid s st) as [[o1 g1] s1]. specialize (IH s1).
      destruct (trace_steps uuid r s1) as [[o2 g2] s2]. rewrite name_all_app, Hs, IH, map_app. reflexivity. }
    specialize (E s1). destruct (trace_steps uuid body s1) as [[o g] s2]. rewrite E. reflexivity.
Qed.

(* ---------------- the names, for instances that are called once ---------------- *)
Lemma name_all_spec names : forall l earlier st,
  NoDup l -> (forall i, In i l -> n_name st i = names i) ->
  (forall b, n_counter st b = carrying names b earlier) ->
  fst (name_all l st) = expected_names names earlier l.
Proof.
  induction l as [|i r IH]; intros earlier st ND Hn Hc; [reflexivity|].
  inversion ND as [|? ? Ni Nr]; subst.
  cbn [name_all expected_names].
  assert (En : n_name st i = names i) by (apply Hn; left; reflexivity).
  unfold unique_name, numbered_name. rewrite En, Hc. set (c := carrying names (names i) earlier).
  assert (Hnext : forall b, carrying names b (earlier ++ [i]) = if String.eqb (names i) b then carrying names b earlier + 1 else carrying names b earlier).
  { intro b. unfold carrying. rewrite filter_app, app_length. cbn [filter]. destruct (String.eqb (names i) b); cbn [List.length]; lia. }
  destruct (Z.eqb_spec c 0) as [Ec|Ec].
  - specialize (IH (earlier ++ [i]) (mkNaming (sset (n_counter st) (names i) 1) (zset (n_name st) i (names i))) Nr).
    destruct (name_all r _) as [ns st'] eqn:EN. cbn [fst snd] in *. f_equal. apply IH.
    + intros j Hj. cbn [n_name]. unfold zset. destruct (Z.eqb_spec j i) as [->|]; [contradiction|]. apply Hn. right; exact Hj.
    + intros b. cbn [n_counter]. unfold sset. rewrite Hnext, String.eqb_sym. destruct (String.eqb_spec (names i) b) as [<-|]; [fold c; lia|apply Hc].
  - specialize (IH (earlier ++ [i]) (mkNaming (sset (n_counter st) (names i) (c + 1)) (zset (n_name st) i (names i ++ "_" ++ decimal c)%string)) Nr).
    destruct (name_all r _) as [ns st'] eqn:EN. cbn [fst snd] in *. f_equal. apply IH.
    + intros j Hj. cbn [n_name]. unfold zset. destruct (Z.eqb_spec j i) as [->|]; [contradiction|]. apply Hn. right; exact Hj.
    + intros b. cbn [n_counter]. unfold sset. rewrite Hnext, String.eqb_sym. destruct (String.eqb_spec (names i) b) as [<-|]; [fold c; lia|apply Hc].
Qed.

(* ---------------- different names ---------------- *)
Lemma decimal_inj a b : 0 <= a -> 0 <= b -> decimal a = decimal b -> a = b.
Proof.
  intros Ha Hb E. unfold decimal in E. apply (f_equal NilEmpty.uint_of_string) in E. rewrite !NilEmpty.usu in E. injection E as E.
  apply (f_equal N.of_uint) in E. rewrite !DecimalN.Unsigned.of_to in E. lia.
Qed.
Fixpoint no_char (c : ascii) (s : string) : Prop := match s with EmptyString => True | String d r => d <> c /\ no_char c r end.
Lemma no_us_uint u : no_char "_" (NilEmpty.string_of_uint u).
Proof. induction u; cbn; auto; split; auto; discriminate. Qed.
Lemma split_us a b d e : no_char "_" d -> no_char "_" e -> (a ++ String "_" d = b ++ String "_" e)%string -> a = b /\ d = e.
Proof.
  assert (K : forall s t, ~ no_char "_" (s ++ String "_" t)).
  { induction s as [|x s IH]; intros t; cbn; [tauto|]. intros [_ H]. exact (IH t H). }
  revert b. induction a as [|x a IH]; intros b Hd He E; destruct b as [|y b]; cbn in E.
  - injection E as ->. auto.
  - injection E as E1 E2. subst d. destruct (K _ _ Hd).
  - injection E as E1 E2. subst e. destruct (K _ _ He).
  - injection E as -> E2. destruct (IH b Hd He E2) as [-> ->]. auto.
Qed.
Lemma numbered_inj n n' c c' : 0 <= c -> 0 <= c' -> (forall k, 0 < k -> n <> numbered_name n' k) -> (forall k, 0 < k -> n' <> numbered_name n k) ->
  numbered_name n c = numbered_name n' c' -> n = n' /\ c = c'.
Proof.
  intros Hc Hc' H1 H2 E.
  destruct (Z.eq_dec c 0) as [->|Nc]; destruct (Z.eq_dec c' 0) as [->|Nc'].
  - auto.
  - destruct (H1 c'); [lia|exact E].
  - destruct (H2 c); [lia|]. symmetry; exact E.
  - unfold numbered_name in E. destruct (Z.eqb_spec c 0); [lia|]. destruct (Z.eqb_spec c' 0); [lia|].
    apply split_us in E; [|apply no_us_uint|apply no_us_uint]. destruct E as [-> E]. split; [reflexivity|]. apply decimal_inj; [lia|lia|exact E].
Qed.
Lemma numbered_reserved n c : n <> "init"%string -> n <> "deinit"%string ->
  numbered_name n c <> "init"%string /\ numbered_name n c <> "deinit"%string.
Proof.
  intros H1 H2. unfold numbered_name. destruct (c =? 0); [auto|].
  assert (K : forall s t u, no_char "_" u -> (s ++ String "_" t)%string <> u).
  { induction s as [|x s IH]; intros t u Hu E; cbn in E; subst u; cbn in Hu; [tauto|]. destruct Hu as [_ Hu]. exact (IH t _ Hu eq_refl). }
  split; apply K; cbn; repeat split; discriminate.
Qed.
Lemma expected_in names : forall l earlier n, In n (expected_names names earlier l) ->
  exists i l1, In i l /\ (exists l2, l = l1 ++ i :: l2) /\ n = numbered_name (names i) (carrying names (names i) (earlier ++ l1)).
Proof.
  induction l as [|i r IH]; intros earlier n H; [contradiction|]. cbn [expected_names] in H. destruct H as [<-|H].
  - exists i, []. rewrite app_nil_r. split; [left; reflexivity|]. split; [exists r; reflexivity|reflexivity].
  - destruct (IH _ _ H) as (j & l1 & Hj & (l2 & ->) & ->). exists j, (i :: l1). split; [right; exact Hj|].
    split; [exists l2; reflexivity|]. rewrite <- app_assoc. reflexivity.
Qed.
Lemma expected_nodup names : forall l earlier,
  (forall i j k, In i l -> In j l -> 0 < k -> names i <> numbered_name (names j) k) -> NoDup (expected_names names earlier l).
Proof.
  induction l as [|i r IH]; intros earlier H; cbn [expected_names]; constructor.
  - intro Hin. destruct (expected_in _ _ _ _ Hin) as (j & l1 & Hj & _ & E).
    apply numbered_inj in E; [|unfold carrying; lia|unfold carrying; lia| |].
    + destruct E as [En Ec]. rewrite <- En in Ec. unfold carrying in Ec. rewrite !filter_app, !app_length in Ec. cbn [filter] in Ec.
      rewrite String.eqb_refl in Ec. cbn [List.length] in Ec. lia.
    + intros k Hk. apply H; [left; reflexivity|right; exact Hj|exact Hk].
    + intros k Hk. apply H; [right; exact Hj|left; reflexivity|exact Hk].
  - apply IH. intros a b k Ha Hb. apply H; right; assumption.
Qed.
Lemma trace_graph_names storage names params inst ins body outs :
  let main := Call inst ins body outs in NoDup (instances main) ->
  subgraph_names (trace storage names params main) = "init"%string :: "deinit"%string :: expected_names names [] (instances main).
Proof.
  intros main ND. unfold trace. pose proof (trace_names storage main (mkNaming (fun _ => 0) names)) as E.
  destruct (trace_step storage main _) as [[ops gs] st]. cbn [subgraph_names]. f_equal. f_equal.
  rewrite <- (name_all_spec names (instances main) [] (mkNaming (fun _ => 0) names)); auto. rewrite E. cbn [fst]. clear.
  induction ops as [|o ops IH]; cbn; [|exact IH]. induction gs as [|[n b] gs IH]; cbn; [reflexivity|]. f_equal. exact IH.
Qed.
