(** Properties of the command line parser: C109. *)
From Verif Require Import Base DTypeModel ArgModel ArgSpec ArgProofs.
Local Open Scope Z_scope.

(** ** C109: the tools get what the command line says *)
(** Every flag reads the last value given under any name of its parameter, its word, or its default. *)
Theorem C109_line : forall ps l, Forall (sensible ps) l -> words_readable ps l -> complete ps l ->
  exists ps', parse (line l) ps = ROk ps' /\
    forall f k a, owner f ps = Some k -> nth_error ps k = Some a ->
      get (a_kind a) f ps' = match value_of ps l k a, a_def a, a_kind a with
                             | Some v, _, _ => ROk v
                             | None, Some v, _ => ROk v
                             | None, None, KString => ROk (VString [])
                             | None, None, _ => RUB
                             end.
Proof.
  intros ps l Hs Hw Hc. exists (put (final ps l) ps). split.
  - rewrite parse_line; [|exact Hs|exact Hw|intros k a Ha Hp Hr; apply (Hc k a Ha Hr), Hp].
    destruct (existsb _ _) eqn:E; [|reflexivity]. exfalso. apply existsb_put in E. destruct E as (k & a & Ha & Hf). cbn [revalue a_required] in Hf.
    apply andb_true_iff in Hf. destruct Hf as [Hr Hv]. destruct (Hc k a Ha Hr) as [V _]. unfold is_set, final in Hv. cbn [revalue a_value] in Hv. rewrite Ha in Hv.
    destruct (value_of ps l k a); [discriminate|congruence].
  - intros f k a Ho Ha. unfold get. rewrite (find_owner f ps _ k a Ho Ha). cbn [revalue a_kind a_value a_def]. unfold final. rewrite Ha.
    replace (kind_eqb (a_kind a) (a_kind a)) with true by (destruct (a_kind a); reflexivity). reflexivity.
Qed.
(** Options about different parameters may be given in any order. *)
Definition about (ps : list arg) (i : item) : list nat :=
  match i with Value f _ | Switch f => match owner f ps with Some k => [k] | None => [] end | Word _ => [] end.
Lemma says_about ps k i v : says ps k i = Some v -> In k (about ps i).
Proof.
  destruct i as [f t|f|t]; cbn; [| |discriminate].
  - destruct (owner f ps) as [k'|]; [|discriminate]. destruct (nth_error ps k) as [a|]; [|discriminate]. destruct (k' =? k)%nat eqn:E; [|discriminate]. apply Nat.eqb_eq in E. cbn. auto.
  - destruct (owner f ps) as [k'|]; [|discriminate]. destruct (k' =? k)%nat eqn:E; [|discriminate]. apply Nat.eqb_eq in E. cbn. auto.
Qed.
Lemma last_said_in ps k v : forall l, last_said ps k l = Some v -> exists i, In i l /\ says ps k i = Some v.
Proof. induction l as [|i l IH]; cbn; [discriminate|]. destruct (last_said ps k l); [intro H; injection H as ->; destruct (IH eq_refl) as (j & Hj & E); exists j; auto|intro H; exists i; auto]. Qed.
Lemma last_said_only ps k v : forall l, NoDup (flat_map (about ps) l) -> forall i, In i l -> says ps k i = Some v -> last_said ps k l = Some v.
Proof.
  induction l as [|j l IH]; intros N i Hi Hv; [destruct Hi|]. cbn in N |- *.
  assert (A : forall x, In x (about ps j) -> ~ In x (flat_map (about ps) l)).
  { clear - N. intros x Hx. induction (about ps j) as [|y r IHr]; [destruct Hx|]. cbn in N. inversion N; subst. destruct Hx as [<-|Hx]; [intro Y; apply H1, in_or_app; auto|auto]. }
  assert (N2 : NoDup (flat_map (about ps) l)) by (clear - N; induction (about ps j) as [|y r IHr]; [exact N|cbn in N; inversion N; auto]).
  destruct Hi as [->|Hi]; [|rewrite (IH N2 i Hi Hv); reflexivity].
  destruct (last_said ps k l) as [w|] eqn:E; [|exact Hv]. exfalso. destruct (last_said_in _ _ _ _ E) as (i' & Hi' & Hv').
  apply (A k (says_about _ _ _ _ Hv)). apply in_flat_map. exists i'. split; [exact Hi'|eapply says_about; exact Hv'].
Qed.
Theorem C109_any_order : forall ps l l', Forall (sensible ps) l -> words_readable ps l -> complete ps l ->
  Permutation l l' -> words l = words l' -> NoDup (flat_map (about ps) l) -> parse (line l) ps = parse (line l') ps.
Proof.
  intros ps l l' Hs Hw Hc Hp Ew N.
  assert (Hs' : Forall (sensible ps) l') by (eapply Permutation_Forall; [exact Hp|exact Hs]).
  assert (N' : NoDup (flat_map (about ps) l')).
  { eapply Permutation_NoDup; [|exact N]. apply Permutation_flat_map. exact Hp. }
  assert (L : forall k, last_said ps k l = last_said ps k l').
  { intro k. destruct (last_said ps k l) as [v|] eqn:E.
    - destruct (last_said_in _ _ _ _ E) as (i & Hi & Hv). symmetry. apply (last_said_only ps k v l' N' i); [eapply Permutation_in; [exact Hp|exact Hi]|exact Hv].
    - destruct (last_said ps k l') as [v|] eqn:E'; [|reflexivity]. destruct (last_said_in _ _ _ _ E') as (i & Hi & Hv).
      rewrite (last_said_only ps k v l N i) in E; [discriminate|eapply Permutation_in; [symmetry; exact Hp|exact Hi]|exact Hv]. }
  rewrite (parse_line ps l Hs Hw ltac:(intros k a Ha Hpo Hr; apply (Hc k a Ha Hr), Hpo)).
  rewrite (parse_line ps l' Hs'); [|unfold words_readable; rewrite <- Ew; exact Hw|rewrite <- Ew; intros k a Ha Hpo Hr; apply (Hc k a Ha Hr), Hpo].
  rewrite (put_ext (final ps l) (final ps l')); [reflexivity|]. intro k. unfold final, value_of. destruct (nth_error ps k); [|reflexivity]. rewrite Ew, L. reflexivity.
Qed.
(** Unknown options, options without their value, values that cannot be read and missing required ones end the program. *)
Lemma parse_bad ps l f rest : Forall (sensible ps) l -> is_option f = true -> (forall v, give f rest (put v ps) = RAbort) -> parse (line l ++ f :: rest) ps = RAbort.
Proof.
  intros Hs Ho Hg. unfold parse. rewrite <- (put_id ps) at 1. rewrite options_line by (auto; lia). cbn [options length]. rewrite Ho, Hg. reflexivity.
Qed.
Theorem C109_refused : forall ps l f rest, Forall (sensible ps) l -> is_option f = true ->
  owner f ps = None \/
  (exists k a, owner f ps = Some k /\ nth_error ps k = Some a /\ a_kind a <> KBool /\ match rest with [] => True | t :: _ => read_value (a_kind a) t = None end) ->
  parse (line l ++ f :: rest) ps = RAbort.
Proof.
  intros ps l f rest Hs Ho H. apply parse_bad; [exact Hs|exact Ho|]. intro v. destruct H as [H|(k & a & Hk & Ha & Nk & Hr)].
  - apply give_unknown. rewrite owner_put. exact H.
  - clear Hs Ho. revert v k Hk Ha. induction ps as [|b ps IH]; intros v k Hk Ha; [discriminate|]. cbn [owner] in Hk. cbn [put give]. change (has_flag f (revalue b (v O))) with (has_flag f b).
    destruct (has_flag f b).
    + injection Hk as <-. cbn in Ha. injection Ha as ->. unfold is_bool. cbn [a_kind revalue]. unfold arg_parse. cbn [a_kind revalue].
      destruct (a_kind a); [congruence| |]; (destruct rest as [|t rest]; [reflexivity|rewrite Hr; reflexivity]).
    + destruct (owner f ps) as [k'|] eqn:E; [|discriminate]. injection Hk as <-. cbn in Ha. rewrite (IH (fun k => v (S k)) k' eq_refl Ha). reflexivity.
Qed.
Theorem C109_required : forall ps l k a, Forall (sensible ps) l -> words_readable ps l -> nth_error ps k = Some a -> a_required a = true -> a_positional a = false ->
  (forall k a, nth_error ps k = Some a -> a_positional a = true -> a_required a = true -> nth_error (words l) (positionals_before ps k) <> None) ->
  value_of ps l k a = None -> parse (line l) ps = RAbort.
Proof.
  intros ps l k a Hs Hw Ha Hr Hp Hq V. rewrite parse_line by assumption. replace (existsb _ _) with true; [reflexivity|]. symmetry. apply existsb_put.
  exists k, a. split; [exact Ha|]. cbn. rewrite Hr. unfold final, is_set. cbn. rewrite Ha, V. reflexivity.
Qed.
(** How texts are read: the two words for each truth value, a string as it is, a number as white space, a sign, decimal digits. *)
Theorem C109_booleans : forall s,
  (read_value KBool s = Some (VBool true) <-> s = [116; 114; 117; 101] \/ s = [49]) /\
  (read_value KBool s = Some (VBool false) <-> s = [102; 97; 108; 115; 101] \/ s = [48]) /\
  (read_value KBool s = None <-> ~ In s [[116; 114; 117; 101]; [49]; [102; 97; 108; 115; 101]; [48]]).
Proof.
  intro s. unfold read_value, str_eqb, s_true, s_false.
  destruct (list_eq_dec Z.eq_dec s [116; 114; 117; 101]) as [->|N1]; [cbn; split; [split; auto|split; split; try discriminate; intuition discriminate]|].
  destruct (list_eq_dec Z.eq_dec s [49]) as [->|N2]; [cbn; split; [split; auto|split; split; try discriminate; intuition discriminate]|].
  destruct (list_eq_dec Z.eq_dec s [102; 97; 108; 115; 101]) as [->|N3]; [cbn; split; [split; [discriminate|intuition discriminate]|split; split; auto; try discriminate; intuition discriminate]|].
  destruct (list_eq_dec Z.eq_dec s [48]) as [->|N4]; [cbn; split; [split; [discriminate|intuition discriminate]|split; split; auto; try discriminate; intuition discriminate]|].
  cbn. split; [|split]; split; try discriminate; try (intuition congruence).
Qed.
Theorem C109_strings : forall s, read_value KString s = Some (VString s).
Proof. reflexivity. Qed.
(** [ds] are the decimal digits, most significant first. *)
Definition number (ds : list Z) : Z := fold_left (fun n d => 10 * n + d) ds 0.
Theorem C109_numbers : forall spaces sign ds, Forall (fun c => c = 32) spaces -> In sign [[]; [43]; [45]] -> ds <> [] -> Forall (fun d => 0 <= d <= 9) ds ->
  let z := match sign with [45] => - number ds | _ => number ds end in
  read_value KInt (spaces ++ sign ++ map (fun d => 48 + d) ds) = if (-2147483648 <=? z) && (z <=? 2147483647) then Some (VInt z) else None.
Proof.
  intros spaces sign ds Hsp Hsg Hne Hds z.
  assert (D : forall ds acc any, Forall (fun d => 0 <= d <= 9) ds -> (any = true \/ ds <> []) ->
    digits acc any (map (fun d => 48 + d) ds) = Some (fold_left (fun n d => 10 * n + d) ds acc)).
  { clear. induction ds as [|d ds IH]; intros acc any H Hn; cbn [map digits fold_left].
    - destruct Hn as [->|]; [reflexivity|congruence].
    - assert (Hd := Forall_inv H). cbn in Hd. unfold is_digit. replace ((48 <=? 48 + d) && (48 + d <=? 57)) with true by lia.
      rewrite IH by (try (exact (Forall_inv_tail H)); auto). do 2 f_equal. lia. }
  assert (K : forall t, (match t with c :: _ => is_space c = false | [] => True end) -> skip_space (spaces ++ t) = t).
  { intros t Ht. clear - Hsp Ht. induction spaces as [|c s IH]; cbn [app].
    - destruct t as [|c t]; cbn; [reflexivity|]. rewrite Ht. reflexivity.
    - assert (E := Forall_inv Hsp). cbn in E. subst c. cbn. apply IH. exact (Forall_inv_tail Hsp). }
  unfold read_value, read_int. destruct ds as [|d ds]; [congruence|]. assert (Hd := Forall_inv Hds). cbn in Hd.
  cbn [In] in Hsg. destruct Hsg as [<-|[<-|[<-|[]]]]; cbn [app map] in *.
  - rewrite K by (unfold is_space; lia). replace (48 + d =? 45) with false by lia. replace (48 + d =? 43) with false by lia.
    change (48 + d :: map (fun d => 48 + d) ds) with (map (fun d => 48 + d) (d :: ds)). rewrite D by (auto; right; discriminate). subst z. unfold number. cbv zeta.
    destruct (_ && _); reflexivity.
  - rewrite K by reflexivity. cbn [Z.eqb Pos.eqb]. change (48 + d :: map (fun d => 48 + d) ds) with (map (fun d => 48 + d) (d :: ds)). rewrite D by (auto; right; discriminate). subst z. unfold number. cbv zeta.
    destruct (_ && _); reflexivity.
  - rewrite K by reflexivity. cbn [Z.eqb Pos.eqb]. change (48 + d :: map (fun d => 48 + d) ds) with (map (fun d => 48 + d) (d :: ds)). rewrite D by (auto; right; discriminate). subst z. unfold number. cbv zeta.
    destruct (_ && _); reflexivity.
Qed.
(** Reading an unknown parameter, or one under another type, ends the program. *)
Theorem C109_typed : forall k f ps,
  (forall a, find (has_flag f) ps = Some a -> a_kind a <> k -> get k f ps = RAbort) /\ (find (has_flag f) ps = None -> get k f ps = RAbort).
Proof.
  intros k f ps. split; [|intro E; unfold get; rewrite E; reflexivity].
  intros a E N. unfold get. rewrite E. replace (kind_eqb k (a_kind a)) with false; [reflexivity|]. destruct k, (a_kind a); try reflexivity; congruence.
Qed.
(** A required word that is missing ends the program, whatever the options say; so does a word that cannot be read. *)
Theorem C109_words : forall ps l k a, Forall (sensible ps) l -> nth_error ps k = Some a -> a_positional a = true ->
  match nth_error (words l) (positionals_before ps k) with Some t => read_value (a_kind a) t = None | None => a_required a = true end ->
  parse (line l) ps = RAbort.
Proof.
  intros ps l k a Hs Ha Hp Hr. unfold parse. rewrite <- (put_id ps) at 1. set (v := fun k => match nth_error ps k with Some a => a_value a | None => None end).
  assert (E := options_line ps l v (length (line l)) [] Hs). rewrite app_nil_r in E. rewrite E by lia. cbn [options length rbind fst snd]. rewrite app_nil_r.
  replace (positionals (words l) (put (said ps l v) ps)) with (@RAbort (list arg)); [reflexivity|]. symmetry.
  generalize (said ps l v) (words l) Hr. clear - Ha Hp. revert k Ha. induction ps as [|b ps IH]; intros k Ha w pos Hr; [destruct k; discriminate|].
  cbn [put positionals]. change (a_positional (revalue b (w O))) with (a_positional b). change (a_required (revalue b (w O))) with (a_required b).
  destruct k as [|k].
  - cbn in Ha. injection Ha as ->. rewrite Hp. cbn in Hr. destruct pos as [|s pos]; [rewrite Hr; reflexivity|]. unfold arg_parse. cbn [a_kind revalue]. rewrite Hr. reflexivity.
  - cbn in Ha. unfold positionals_before in Hr. cbn [firstn filter] in Hr. destruct (a_positional b) eqn:Eb.
    + cbn [length] in Hr. destruct pos as [|s pos].
      * destruct (a_required b); [reflexivity|]. rewrite (IH k Ha (fun k => w (S k)) []); [reflexivity|]. cbn in Hr. destruct (positionals_before ps k); exact Hr.
      * cbn [nth_error] in Hr. unfold arg_parse. destruct (read_value _ s); [|reflexivity]. cbn [rbind]. rewrite (IH k Ha (fun k => w (S k)) pos Hr). reflexivity.
    + rewrite (IH k Ha (fun k => w (S k)) pos Hr). reflexivity.
Qed.
(** The names in the declaration: -m|--model. *)
Fixpoint joined (names : list str) : str := match names with [] => [] | [n] => n | n :: r => n ++ 124 :: joined r end.
Theorem C109_names : forall names, Forall (fun n => n <> [] /\ forall c, In c n -> c <> 124) names -> split_flags (joined names) = names.
Proof.
  assert (P : forall names, Forall (fun n => n <> [] /\ forall c, In c n -> c <> 124) names -> split_pieces [] (joined names) = names).
  { induction names as [|n names IH]; intro H; [reflexivity|]. destruct (Forall_inv H) as [Nn Cn]. apply Forall_inv_tail in H. destruct names as [|m names].
    - cbn [joined]. rewrite pieces_clean by exact Cn. cbn. destruct n; [congruence|reflexivity].
    - change (joined (n :: m :: names)) with (n ++ 124 :: joined (m :: names)). rewrite pieces_bar by exact Cn. cbn [app]. rewrite (IH H). destruct n; [congruence|reflexivity]. }
  intros names H. unfold split_flags. rewrite (P names H). destruct names as [|n names]; [reflexivity|]. destruct (joined (n :: names)); reflexivity.
Qed.
(** A number followed by anything is read as the number. *)
Theorem C109_garbage_refuted : forall s n c rest, read_int s = Some n -> is_digit c = false -> read_int (s ++ c :: rest) = Some n.
Proof.
  assert (D : forall s acc any n c rest, is_digit c = false -> digits acc any s = Some n -> digits acc any (s ++ c :: rest) = Some n).
  { induction s as [|x s IH]; intros acc any n c rest Hc; cbn.
    - rewrite Hc. auto.
    - destruct (is_digit x); [apply IH; exact Hc|auto]. }
  intros s n c rest H Hc. unfold read_int in *.
  assert (K : forall s, skip_space s <> [] -> skip_space (s ++ c :: rest) = skip_space s ++ c :: rest).
  { induction s0 as [|x s0 IH]; cbn; intro N; [congruence|]. destruct (is_space x); [auto|reflexivity]. }
  destruct (skip_space s) as [|x r] eqn:E; [discriminate|]. rewrite K by (rewrite E; discriminate). rewrite E. cbn [app].
  destruct (x =? 45); [|destruct (x =? 43)].
  - destruct (digits 0 false r) as [m|] eqn:Ed; [|discriminate]. rewrite (D _ _ _ _ _ _ Hc Ed). exact H.
  - destruct (digits 0 false r) as [m|] eqn:Ed; [|discriminate]. rewrite (D _ _ _ _ _ _ Hc Ed). exact H.
  - destruct (digits 0 false (x :: r)) as [m|] eqn:Ed; [|discriminate]. change (x :: r ++ c :: rest) with ((x :: r) ++ c :: rest). rewrite (D _ _ _ _ _ _ Hc Ed). exact H.
Qed.
(** Words nobody asked for are accepted without a word; "-n 12abc" is 12; a number never given and without default is read uninitialised. *)
Definition s_n : str := [45; 110].          (* -n *)
Definition s_num : str := [45; 45; 110; 117; 109].   (* --num *)
Definition s_m : str := [45; 109].          (* -m *)
Definition s_v : str := [45; 118].          (* -v *)
Definition ex_args : list arg :=
  [new_arg KInt (joined [s_n; s_num]) false false (Some (VInt 7)); new_arg KString s_m true false None; new_arg KBool s_v false false None].
Theorem C109_unchecked_refuted :
  (exists ps, parse [s_m; [97]; [98]; [99]] ex_args = ROk ps) /\
  (exists ps, parse [s_m; [97]; s_n; [49; 50; 97; 98; 99]] ex_args = ROk ps /\ get KInt s_n ps = ROk (VInt 12)) /\
  (exists ps, parse [s_m; [97]] ex_args = ROk ps /\ get KBool s_v ps = RUB).
Proof.
  split; [eexists; vm_compute; reflexivity|]. split; eexists; (split; [vm_compute; reflexivity|vm_compute; reflexivity]).
Qed.
(** -n 3 -v -m x --num 5 *)
Definition ex_line : list item := [Value s_n [51]; Switch s_v; Value s_m [120]; Value s_num [53]].
Lemma C109_hypotheses : Forall (sensible ex_args) ex_line /\ words_readable ex_args ex_line /\ complete ex_args ex_line /\
  value_of ex_args ex_line 0 (new_arg KInt (joined [s_n; s_num]) false false (Some (VInt 7))) = Some (VInt 5).
Proof.
  split; [|split; [|split]].
  - unfold ex_line. apply Forall_cons; [|apply Forall_cons; [|apply Forall_cons; [|apply Forall_cons; [|constructor]]]]; cbn [sensible]; (split; [reflexivity|]).
    + eexists 0%nat, _. split; [vm_compute; reflexivity|]. split; [reflexivity|]. split; [discriminate|vm_compute; discriminate].
    + eexists 2%nat, _. split; [vm_compute; reflexivity|]. split; [reflexivity|]. reflexivity.
    + eexists 1%nat, _. split; [vm_compute; reflexivity|]. split; [reflexivity|]. split; [discriminate|vm_compute; discriminate].
    + eexists 0%nat, _. split; [vm_compute; reflexivity|]. split; [reflexivity|]. split; [discriminate|vm_compute; discriminate].
  - intros k a t Ha Hp Ht. cbn in Ht. destruct (positionals_before ex_args k); discriminate.
  - intros [|[|[|k]]] a Ha Hr; cbn in Ha; try (injection Ha as <-; discriminate).
    + injection Ha as <-. split; [vm_compute; discriminate|intro X; discriminate].
    + destruct k; discriminate.
  - vm_compute. reflexivity.
Qed.

Print Assumptions C109_line.
Print Assumptions C109_any_order.
Print Assumptions C109_refused.
Print Assumptions C109_required.
Print Assumptions C109_names.
Print Assumptions C109_garbage_refuted.
Print Assumptions C109_unchecked_refuted.
Print Assumptions C109_booleans.
Print Assumptions C109_strings.
Print Assumptions C109_numbers.
Print Assumptions C109_typed.
Print Assumptions C109_words.
