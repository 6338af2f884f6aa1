(** Names, depths and orders of registered modules. *)
From Verif Require Import Base DTypeModel SymModel SymSpec SymProofs SymPrint NnModel NnSpec.
Local Open Scope Z_scope.

Section DeclInd.
Variable P : decl -> Prop.
Hypothesis HL : forall k, P (DLayer k).
Hypothesis HM : forall body, Forall (fun e => P (snd e)) body -> P (DModule body).
Hypothesis HS : forall items, Forall P items -> P (DSequential items).
Fixpoint decl_all (d : decl) : P d :=
  match d with
  | DLayer k => HL k
  | DModule body => HM body ((fix go (l : list (str * decl)) : Forall (fun e => P (snd e)) l :=
      match l with [] => Forall_nil _ | e :: l => Forall_cons e (decl_all (snd e)) (go l) end) body)
  | DSequential items => HS items ((fix go (l : list decl) : Forall P l :=
      match l with [] => Forall_nil _ | e :: l => Forall_cons e (decl_all e) (go l) end) items)
  end.
End DeclInd.

Section NodeInd.
Context {T : Type}.
Variable P : @node T -> Prop.
Hypothesis HL : forall a b d v o, P (NLayer a b d v o).
Hypothesis HM : forall a b d v bf fs cs, Forall P cs -> P (NModule a b d v bf fs cs).
Fixpoint node_all (n : @node T) : P n :=
  match n with
  | NLayer a b d v o => HL a b d v o
  | NModule a b d v bf fs cs => HM a b d v bf fs cs ((fix go (l : list node) : Forall P l :=
      match l with [] => Forall_nil _ | e :: l => Forall_cons e (node_all e) (go l) end) cs)
  end.
End NodeInd.

(* ------------------------------------------------------------------ *)
(** ** The shape of a constructed module *)
Section Shape.
Context {T : Type}.
Notation node := (@node T).
Notation construct := (@construct T).

(** The items of a Sequential called abs, from number i. *)
Fixpoint seq_children (abs : str) (i : Z) (l : list decl) : list node :=
  match l with
  | [] => []
  | c :: l => bump (bump (set_name (show_int i) (construct abs (join_ptr abs (show_int i)) c))) :: seq_children abs (i + 1) l
  end.
Definition mod_child (abs : str) (e : str * decl) : node :=
  match snd e with
  | DSequential items => NModule (fst e) (join abs (fst e)) 1 0 [] [] (seq_children (join abs (fst e)) 0 items)
  | c => bump (set_name (fst e) (construct abs (join abs (fst e)) c))
  end.
Definition add_items := fix add_items (abs : str) (i : Z) (l : list decl) (m : node) {struct l} : node :=
    match l with
    | [] => m
    | c :: l =>
        let name := show_int i in
        add_items abs (i + 1) l (reg_child m (bump (set_name name (construct abs (join_ptr abs name) c))))
    end.
Lemma add_items_ok abs l : forall i a b d v bf fs cs,
  add_items abs i l (NModule a b d v bf fs cs) = NModule a b d v bf fs (cs ++ seq_children abs i l).
Proof.
  induction l as [|c l IH]; intros i a b d v bf fs cs; cbn [add_items seq_children]; [rewrite app_nil_r; reflexivity|].
  cbn [reg_child]. rewrite IH. rewrite <- app_assoc. reflexivity.
Qed.
Lemma construct_layer owner abs k : construct owner abs (DLayer k) = new_layer abs (k owner).
Proof. reflexivity. Qed.
Lemma construct_seq owner abs items : construct owner abs (DSequential items) = NModule abs abs 0 0 [] [] (seq_children abs 0 items).
Proof. change (construct owner abs (DSequential items)) with (add_items abs 0 items (new_module abs)). unfold new_module. rewrite add_items_ok. reflexivity. Qed.
Definition regs (abs : str) := (fix regs (l : list (str * decl)) (m : node) {struct l} : node :=
         match l with
         | [] => m
         | (name, c) :: l =>
             regs l (match c with
                     | DSequential items => attach m (add_items (join abs name) 0 items (set_name name (bump (new_module (join abs name)))))
                     | _ => reg_child m (set_name name (construct abs (join abs name) c))
                     end)
         end).
Lemma regs_ok abs l : forall a b d v bf fs cs,
  regs abs l (NModule a b d v bf fs cs) = NModule a b d v bf fs (cs ++ map (mod_child abs) l).
Proof.
  induction l as [|[n c] l IH]; intros a b d v bf fs cs; cbn [regs map]; [rewrite app_nil_r; reflexivity|].
  destruct c as [k|body|items].
  - cbn [reg_child]. rewrite IH, <- app_assoc. reflexivity.
  - cbn [reg_child]. rewrite IH, <- app_assoc. reflexivity.
  - cbn [bump new_module set_name map]. rewrite add_items_ok. cbn [attach]. rewrite IH, <- app_assoc. reflexivity.
Qed.
Lemma construct_mod owner abs body : construct owner abs (DModule body) = NModule abs abs 0 0 [] [] (map (mod_child abs) body).
Proof. change (construct owner abs (DModule body)) with (regs abs body (new_module abs)). unfold new_module. rewrite regs_ok. reflexivity. Qed.

Lemma ops_bump (n : node) : ops (bump n) = ops n.
Proof.
  induction n as [a b d v o|a b d v bf fs cs IH] using node_all; [reflexivity|]. cbn [bump ops].
  induction IH as [|c cs H IH' E]; [reflexivity|]. cbn [map flat_map]. rewrite H, E. reflexivity.
Qed.
Lemma ops_set_name s (n : node) : ops (set_name s n) = ops n. Proof. destruct n; reflexivity. Qed.

(* ------------------------------------------------------------------ *)
(** ** Dotted names *)
Lemma dotted_nil p : dotted ([] :: p) = dotted p. Proof. reflexivity. Qed.
Lemma dotted_ne a p : a <> [] -> dotted (a :: p) = match dotted p with [] => a | _ => a ++ [46] ++ dotted p end.
Proof.
  intro H. destruct a as [|x a]; [congruence|]. unfold dotted. cbn [filter].
  set (f := filter _ p). assert (Hf : Forall (fun s => s <> []) f).
  { apply Forall_forall. intros s Hs. apply filter_In in Hs as [_ Hs]. destruct s; congruence. }
  destruct f as [|b r]; [reflexivity|]. cbn [join_dots]. inversion Hf; subst.
  destruct r; [destruct b; [congruence|reflexivity]|]. destruct b; [congruence|reflexivity].
Qed.
Lemma dotted_dec p : dotted p = [] \/ dotted p <> []. Proof. destruct (dotted p); [left; reflexivity|right; discriminate]. Qed.
Lemma dotted_ne_not_nil a p : a <> [] -> dotted (a :: p) <> [].
Proof. intro H. rewrite dotted_ne by exact H. destruct (dotted p); [exact H|]. destruct a; [congruence|discriminate]. Qed.
Lemma dotted_cons a p : a <> [] -> dotted p <> [] -> dotted (a :: p) = a ++ [46] ++ dotted p.
Proof. intros H D. rewrite dotted_ne by exact H. destruct (dotted p); [congruence|reflexivity]. Qed.
(** join is dotted's way of extending a name. *)
Lemma join_dotted a n p : dotted (join a n :: p) = dotted (a :: n :: p).
Proof.
  destruct a as [|x a]; [reflexivity|]. destruct n as [|y n].
  - cbn [join]. rewrite !app_nil_r. rewrite !dotted_ne by discriminate. rewrite dotted_nil. reflexivity.
  - cbn [join]. rewrite (dotted_cons (x :: a)) by (try apply dotted_ne_not_nil; discriminate).
    rewrite (dotted_ne ((x :: a) ++ dot ++ y :: n)) by discriminate. rewrite (dotted_ne (y :: n)) by discriminate.
    unfold dot. destruct (dotted p); [reflexivity|]. rewrite <- !app_assoc. reflexivity.
Qed.
Lemma show_int_ne i : 0 <= i -> show_int i <> []. Proof. intro H. apply (show_int_ok i H). Qed.
Lemma show_int_inj i j : 0 <= i -> 0 <= j -> show_int i = show_int j -> i = j.
Proof. intros Hi Hj E. destruct (show_int_ok i Hi) as (_ & _ & A). destruct (show_int_ok j Hj) as (_ & _ & B). rewrite <- A, <- B, E. reflexivity. Qed.
Lemma join_ptr_ok a n : n <> [] -> join_ptr a n = join a n.
Proof. intro H. destruct a; [reflexivity|]. destruct n; [congruence|reflexivity]. Qed.

Definition seq_layers := (fix number (i : Z) (l : list decl) :=
         match l with
         | [] => []
         | c :: l => map (fun pk => (show_int i :: fst pk, snd pk)) (layers c) ++ number (i + 1) l
         end).
Definition op_at (owner abs : str) (pk : list str * (str -> kind)) : str * kind :=
  (dotted (abs :: fst pk), snd pk (match fst pk with [] => owner | p => dotted (abs :: removelast p) end)).
Definition sig (o : @op T) : str * kind := (o_name o, o_kind o).
Lemma op_at_child abs n pk : op_at abs (join abs n) pk = (dotted (abs :: n :: fst pk), snd pk (dotted (abs :: removelast (n :: fst pk)))).
Proof.
  destruct pk as [p k]. unfold op_at. cbn [fst snd]. rewrite join_dotted. destruct p as [|m p].
  - cbn [removelast]. f_equal. f_equal. unfold dotted. destruct abs; reflexivity.
  - rewrite join_dotted. reflexivity.
Qed.
Lemma ops_seq_children abs l : Forall (fun d => forall owner abs, map sig (ops (construct owner abs d)) = map (op_at owner abs) (layers d)) l ->
  forall i owner, 0 <= i -> map sig (flat_map ops (seq_children abs i l)) = map (op_at owner abs) (seq_layers i l).
Proof.
  induction 1 as [|c l H _ IH]; intros i owner Hi; [reflexivity|]. cbn [seq_children seq_layers flat_map]. rewrite !map_app.
  rewrite !ops_bump, ops_set_name. rewrite (IH (i + 1) owner ltac:(lia)). f_equal.
  rewrite H, map_map. apply map_ext. intro pk. rewrite join_ptr_ok by (apply show_int_ne; exact Hi). rewrite op_at_child. reflexivity.
Qed.
Lemma ops_construct d : forall owner abs, map sig (ops (construct owner abs d)) = map (op_at owner abs) (layers d).
Proof.
  induction d as [k|body IH|items IH] using decl_all; intros owner abs.
  - rewrite construct_layer. cbn [ops new_layer layers map sig]. unfold op_at, sig. cbn [fst snd o_name o_kind]. f_equal. f_equal. unfold dotted. destruct abs; reflexivity.
  - rewrite construct_mod. cbn [ops layers]. induction IH as [|[n c] body H _ IHb]; [reflexivity|].
    cbn [map flat_map]. rewrite !map_app, IHb. f_equal. rewrite map_map. cbn [fst snd] in H. cbn [fst snd].
    transitivity (map (op_at abs (join abs n)) (layers c)).
    2: { apply map_ext. intro pk. rewrite op_at_child. reflexivity. }
    rewrite <- H. unfold mod_child. cbn [fst snd].
    destruct c as [k|b|items]; try (rewrite ops_bump, ops_set_name; reflexivity).
    rewrite construct_seq. reflexivity.
  - rewrite construct_seq. cbn [ops layers]. apply ops_seq_children; [exact IH|lia].
Qed.
Theorem names_ok root d : is_layer d = false ->
  map sig (ops (make root d)) = map (fun pk => (dotted (root :: fst pk), snd pk (dotted (root :: removelast (fst pk))))) (layers d).
Proof.
  intro L. unfold make. rewrite ops_construct. apply map_ext_in. intros [p k] Hp. unfold op_at. cbn [fst snd]. destruct p as [|n p]; [|reflexivity].
  exfalso. destruct d as [k'|body|items]; [discriminate| |].
  - cbn [layers] in Hp. apply in_flat_map in Hp as (e & _ & Hp). apply in_map_iff in Hp as (pk & E & _). discriminate.
  - cbn [layers] in Hp. change (In ([], k) (seq_layers 0 items)) in Hp. clear L. revert Hp. generalize 0. induction items as [|c l IH]; intros i Hp; [exact Hp|].
    cbn [seq_layers] in Hp. apply in_app_iff in Hp as [Hp|Hp]; [apply in_map_iff in Hp as (pk & E & _); discriminate|exact (IH _ Hp)].
Qed.
Lemma fresh_ops d : forall owner abs o, In o (ops (construct owner abs d)) -> o_device o = 0 /\ o_weight o = None /\ o_bias o = None.
Proof.
  induction d as [k|body IH|items IH] using decl_all; intros owner abs o Ho.
  - destruct Ho as [<-|[]]. auto.
  - rewrite construct_mod in Ho. cbn [ops] in Ho. apply in_flat_map in Ho as (x & Hx & Ho). apply in_map_iff in Hx as ([n c] & <- & He).
    rewrite Forall_forall in IH. specialize (IH _ He). cbn [snd] in IH. apply (IH abs (join abs n)). revert Ho. unfold mod_child. cbn [fst snd].
    destruct c; try (rewrite ops_bump, ops_set_name; auto). rewrite construct_seq. auto.
  - rewrite construct_seq in Ho. cbn [ops] in Ho. revert Ho. generalize 0 at 1. induction IH as [|c l H _ IHl]; intros i Ho; [destruct Ho|].
    cbn [seq_children flat_map] in Ho. apply in_app_iff in Ho as [Ho|Ho]; [|exact (IHl _ Ho)]. rewrite !ops_bump, ops_set_name in Ho. exact (H _ _ _ Ho).
Qed.
End Shape.

(* ------------------------------------------------------------------ *)
(** ** Different layers, different parameter names *)
Lemma prefix_refl a : prefix a a. Proof. exists []. rewrite app_nil_r. reflexivity. Qed.
Lemma prefix_trans a b c : prefix a b -> prefix b c -> prefix a c.
Proof. intros [r ->] [q ->]. exists (r ++ q). rewrite app_assoc. reflexivity. Qed.
Lemma prefix_total a : forall b c, prefix a c -> prefix b c -> prefix a b \/ prefix b a.
Proof.
  induction a as [|x a IH]; intros b c Ha Hb; [left; exists b; reflexivity|]. destruct b as [|y b]; [right; exists (x :: a); reflexivity|].
  destruct Ha as [r Er]. destruct Hb as [q Eq]. subst c. cbn [app] in Eq. injection Eq as E1 E2. subst y.
  destruct (IH b (a ++ r)) as [[u E]|[u E]]; [exists r; reflexivity|exists q; exact E2| |].
  - left. exists u. cbn [app]. f_equal. exact E.
  - right. exists u. cbn [app]. f_equal. exact E.
Qed.
Lemma prefix_app a b c : prefix b c -> prefix (a ++ b) (a ++ c).
Proof. intros [r ->]. exists r. rewrite app_assoc. reflexivity. Qed.
Lemma prefix_app_inv a b c : prefix (a ++ b) (a ++ c) -> prefix b c.
Proof. intros [r E]. exists r. rewrite <- app_assoc in E. exact (app_inv_head _ _ _ E). Qed.
Lemma apart_join abs a b : a <> [] -> b <> [] -> apart a b -> apart (join abs a) (join abs b).
Proof.
  intros Na Nb [H1 H2]. destruct abs as [|x abs]; [split; assumption|]. destruct a as [|y a]; [congruence|]. destruct b as [|z b]; [congruence|]. cbn [join].
  split; intro H; rewrite <- !app_assoc in H; apply prefix_app_inv in H; apply prefix_app_inv in H; tauto.
Qed.
Lemma join_prefix abs n : abs <> [] -> n <> [] -> prefix (abs ++ [46]) (join abs n ++ [46]).
Proof. intros Ha Hn. destruct abs; [congruence|]. destruct n; [congruence|]. cbn [join]. exists (z0 :: n ++ [46]). unfold dot. rewrite <- !app_assoc. reflexivity. Qed.
Lemma join_ne abs n : n <> [] -> join abs n <> []. Proof. destruct abs; [auto|]. discriminate. Qed.
Lemma digits_apart a b : all_digits a -> all_digits b -> a <> b -> apart a b.
Proof.
  assert (K : forall a b, all_digits a -> all_digits b -> prefix (a ++ [46]) (b ++ [46]) -> a = b).
  { clear a b. induction a as [|x a IH]; intros b Da Db [r E].
    - destruct b as [|y b]; [reflexivity|]. cbn in E. injection E as E _. specialize (Db y (or_introl eq_refl)). lia.
    - destruct b as [|y b]; cbn in E; injection E as E E'; [specialize (Da x (or_introl eq_refl)); lia|]. subst y. f_equal.
      apply IH; [intros c Hc; apply Da; right; exact Hc|intros c Hc; apply Db; right; exact Hc|exists r; exact E']. }
  intros Da Db N. split; intro H; apply K in H; auto.
Qed.
Lemma dot_free_apart a b : ~ In 46 a -> ~ In 46 b -> a <> b -> apart a b.
Proof.
  assert (K : forall a b, ~ In 46 a -> ~ In 46 b -> prefix (a ++ [46]) (b ++ [46]) -> a = b).
  { clear a b. induction a as [|x a IH]; intros b Da Db [r E].
    - destruct b as [|y b]; [reflexivity|]. cbn in E. injection E as E _. exfalso. apply Db. left. congruence.
    - destruct b as [|y b]; cbn in E; injection E as E E'; [exfalso; apply Da; left; congruence|]. subst y. f_equal.
      apply IH; [intro Hc; apply Da; right; exact Hc|intro Hc; apply Db; right; exact Hc|exists r; exact E']. }
  intros Da Db N. split; intro H; apply K in H; auto.
Qed.

Section Unique.
Context {T : Type}.
Definition pnames (v : version) (l : list (@op T)) : list str := map fst (all_parameters v l).
Lemma pnames_app v a b : pnames v (a ++ b) = pnames v a ++ pnames v b.
Proof. unfold pnames, all_parameters. rewrite flat_map_app, map_app. reflexivity. Qed.
Lemma in_pnames v l p : In p (pnames v l) <-> exists o e, In o l /\ In e (parameters v (o_kind o) (o_name o)) /\ fst e = p.
Proof.
  unfold pnames, all_parameters. rewrite in_map_iff. split.
  - intros (e & <- & He). apply in_flat_map in He as (o & Ho & He). exists o, e. auto.
  - intros (o & e & Ho & He & <-). exists e. split; [reflexivity|]. apply in_flat_map. exists o. auto.
Qed.
Lemma one_op_prefix v (o : @op T) e : conventional o -> In e (parameters v (o_kind o) (o_name o)) -> prefix (o_name o ++ [46]) (fst e ++ [46]).
Proof.
  intros C He. assert (K : fst e = o_name o ++ s_weight \/ fst e = o_name o ++ s_bias \/ fst e = o_name o).
  { unfold conventional in C. destruct (o_kind o); cbn [parameters] in He; try subst name;
    repeat match type of He with context [if ?b then _ else _] => destruct b end; cbn [In app] in He; intuition (subst; auto). }
  destruct K as [-> |[-> | ->]].
  - exists [119; 101; 105; 103; 104; 116; 46]. rewrite <- !app_assoc. reflexivity.
  - exists [98; 105; 97; 115; 46]. rewrite <- !app_assoc. reflexivity.
  - apply prefix_refl.
Qed.
Lemma one_op_nodup v (o : @op T) : NoDup (map fst (parameters v (o_kind o) (o_name o))).
Proof.
  assert (W : o_name o ++ s_weight <> o_name o ++ s_bias) by (intro E; apply app_inv_head in E; discriminate).
  destruct (o_kind o); cbn [parameters]; repeat match goal with |- context [if ?b then _ else _] => destruct b end; cbn [app map fst];
  repeat constructor; cbn [In]; intuition.
Qed.
Lemma nodup_parts v (f : str -> Prop) (l1 l2 : list (@op T)) :
  NoDup (pnames v l1) -> NoDup (pnames v l2) -> (forall p, In p (pnames v l1) -> In p (pnames v l2) -> False) -> NoDup (pnames v (l1 ++ l2)).
Proof.
  intros N1 N2 D. rewrite pnames_app. revert N1 D. induction (pnames v l1) as [|p q IH]; intros N1 D; [exact N2|]. inversion N1; subst. cbn [app].
  constructor.
  - intro H. apply in_app_iff in H as [H|H]; [contradiction|]. apply (D p); [left; reflexivity|exact H].
  - apply IH; [assumption|]. intros r Hr Hr'. apply (D r); [right; exact Hr|exact Hr'].
Qed.
Notation construct := (@construct T).

Definition all_conv (l : list (@op T)) := forall o, In o l -> conventional o.
Definition under v (abs : str) (l : list (@op T)) := forall p, In p (pnames v l) -> prefix (abs ++ [46]) (p ++ [46]).
Lemma under_app v abs a b : under v abs a -> under v abs b -> under v abs (a ++ b).
Proof. intros A B p Hp. rewrite pnames_app in Hp. apply in_app_iff in Hp as [Hp|Hp]; auto. Qed.
Lemma under_up v a b l : prefix (a ++ [46]) (b ++ [46]) -> under v b l -> under v a l.
Proof. intros P H p Hp. apply (prefix_trans _ _ _ P). apply H. exact Hp. Qed.
Lemma under_apart v a b l1 l2 : apart a b -> under v a l1 -> under v b l2 -> forall p, In p (pnames v l1) -> In p (pnames v l2) -> False.
Proof. intros [A1 A2] H1 H2 p P1 P2. destruct (prefix_total _ _ _ (H1 p P1) (H2 p P2)); contradiction. Qed.
Lemma ops_mod_child abs e : ops (@mod_child T abs e) = ops (construct abs (join abs (fst e)) (snd e)).
Proof.
  destruct e as [n c]. unfold mod_child. cbn [fst snd]. destruct c; try (rewrite ops_bump, ops_set_name; reflexivity).
  rewrite construct_seq. reflexivity.
Qed.

Definition good_names v (d : decl) := forall owner abs, all_conv (ops (construct owner abs d)) ->
  NoDup (pnames v (ops (construct owner abs d))) /\ (abs <> [] -> under v abs (ops (construct owner abs d))).
Lemma seq_names v abs items : Forall (good_names v) items -> forall i, 0 <= i -> all_conv (flat_map ops (@seq_children T abs i items)) ->
  NoDup (pnames v (flat_map ops (seq_children abs i items))) /\
  (forall p, In p (pnames v (flat_map ops (seq_children abs i items))) -> exists j, i <= j /\ prefix (join abs (show_int j) ++ [46]) (p ++ [46])).
Proof.
  induction 1 as [|c l H _ IH]; intros i Hi C.
  - split; [constructor|]. intros p [].
  - cbn [seq_children flat_map] in *. rewrite !ops_bump, ops_set_name in *. rewrite join_ptr_ok in * by (apply show_int_ne; exact Hi).
    assert (NE : join abs (show_int i) <> []) by (apply join_ne, show_int_ne; exact Hi).
    destruct (H abs (join abs (show_int i))) as [N1 U1]; [intros o Ho; apply C; apply in_app_iff; auto|]. specialize (U1 NE).
    destruct (IH (i + 1) ltac:(lia)) as [N2 U2]; [intros o Ho; apply C; apply in_app_iff; auto|].
    split.
    + apply (nodup_parts v (fun _ => True)); auto. intros p P1 P2. destruct (U2 p P2) as (j & Hj & Pj). specialize (U1 p P1).
      assert (A : apart (join abs (show_int i)) (join abs (show_int j))).
      { apply apart_join; [apply show_int_ne; lia|apply show_int_ne; lia|]. apply digits_apart; [apply show_int_ok; lia|apply show_int_ok; lia|].
        intro E. apply show_int_inj in E; lia. }
      destruct A as [A1 A2]. destruct (prefix_total _ _ _ U1 Pj); contradiction.
    + intros p Hp. rewrite pnames_app in Hp. apply in_app_iff in Hp as [Hp|Hp].
      * exists i. split; [lia|]. apply U1. exact Hp.
      * destruct (U2 p Hp) as (j & Hj & Pj). exists j. split; [lia|exact Pj].
Qed.
Theorem unique_names v d : well_named d -> good_names v d.
Proof.
  induction d as [k|body IH|items IH] using decl_all; intros W owner abs C.
  - rewrite construct_layer in *. cbn [new_layer ops] in *. set (o := mkOp abs (k owner) 0 None None) in *.
    assert (E : pnames v [o] = map fst (parameters v (o_kind o) (o_name o))) by (unfold pnames, all_parameters; cbn [flat_map]; rewrite app_nil_r; reflexivity).
    split; [rewrite E; apply one_op_nodup|]. intros _ p Hp. rewrite E in Hp. apply in_map_iff in Hp as (e & <- & He).
    exact (one_op_prefix v o e (C o (or_introl eq_refl)) He).
  - inversion W as [|b NE AP WB Eb|]; subst b. rewrite construct_mod in *. cbn [ops] in *.
    assert (G : NoDup (pnames v (flat_map ops (map (@mod_child T abs) body))) /\
                forall p, In p (pnames v (flat_map ops (map (@mod_child T abs) body))) -> exists e, In e body /\ prefix (join abs (fst e) ++ [46]) (p ++ [46])).
    { clear W owner. induction body as [|e body IHb]; [split; [constructor|intros p []]|].
      inversion IH as [|? ? I1 I2]; subst. inversion NE as [|? ? E1 E2]; subst. inversion AP as [|? ? A1 A2]; subst. inversion WB as [|? ? B1 B2]; subst.
      cbn [map flat_map] in *. rewrite ops_mod_child in *.
      destruct (I1 B1 abs (join abs (fst e))) as [N1 U1]; [intros o Ho; apply C; apply in_app_iff; auto|]. specialize (U1 (join_ne abs _ E1)).
      destruct (IHb I2 (fun o Ho => C o (proj2 (in_app_iff _ _ _) (or_intror Ho))) E2 A2 B2) as [N2 U2]. split.
      - apply (nodup_parts v (fun _ => True)); auto. intros p P1 P2. destruct (U2 p P2) as (f & Hf & Pf). rewrite Forall_forall in A1, E2. specialize (A1 f Hf).
        destruct (apart_join abs _ _ E1 (E2 f Hf) A1) as [X1 X2]. destruct (prefix_total _ _ _ (U1 p P1) Pf); contradiction.
      - intros p Hp. rewrite pnames_app in Hp. apply in_app_iff in Hp as [Hp|Hp].
        + exists e. split; [left; reflexivity|apply U1; exact Hp].
        + destruct (U2 p Hp) as (f & Hf & Pf). exists f. split; [right; exact Hf|exact Pf]. }
    destruct G as [G1 G2]. split; [exact G1|]. intros Ha p Hp. destruct (G2 p Hp) as (e & He & Pe). rewrite Forall_forall in NE.
    exact (prefix_trans _ _ _ (join_prefix abs (fst e) Ha (NE e He)) Pe).
  - inversion W as [| |l WI El]; subst l. rewrite construct_seq in *. cbn [ops] in *.
    assert (GI : Forall (good_names v) items).
    { apply Forall_forall. intros c Hc. rewrite Forall_forall in IH, WI. exact (IH c Hc (WI c Hc)). }
    destruct (seq_names v abs items GI 0 ltac:(lia) C) as [G1 G2]. split; [exact G1|].
    intros Ha p Hp. destruct (G2 p Hp) as (j & Hj & Pj). apply (prefix_trans _ _ _ (join_prefix abs (show_int j) Ha (show_int_ne j Hj)) Pj).
Qed.
End Unique.

(* ------------------------------------------------------------------ *)
(** ** Depths *)
Section Depth.
Context {T : Type}.
Notation node := (@node T).
Notation construct := (@construct T).
Lemma depth_bump (n : node) : n_depth (bump n) = n_depth n + 1. Proof. destruct n; reflexivity. Qed.
Lemma depth_set_name s (n : node) : n_depth (set_name s n) = n_depth n. Proof. destruct n; reflexivity. Qed.
Lemma children_bump (n : node) : n_children (bump n) = map bump (n_children n). Proof. destruct n; reflexivity. Qed.
Lemma children_set_name s (n : node) : n_children (set_name s n) = n_children n. Proof. destruct n; reflexivity. Qed.
Lemma below_inv (n : node) k x : below n k x -> (k = 0%nat /\ x = n) \/ exists c k', k = S k' /\ In c (n_children n) /\ below c k' x.
Proof. intro H. inversion H; subst; [left; auto|right; eauto 6]. Qed.
Lemma below_bump (n : node) : forall k x, below (bump n) k x -> exists y, below n k y /\ n_depth x = n_depth y + 1.
Proof.
  induction n as [a b d v o|a b d v bf fs cs IH] using node_all; intros k x H; apply below_inv in H as [[-> ->]|(c & k' & -> & Hc & H)].
  - exists (NLayer a b d v o). split; [constructor|reflexivity].
  - destruct Hc.
  - exists (NModule a b d v bf fs cs). split; [constructor|reflexivity].
  - cbn [bump n_children] in Hc. apply in_map_iff in Hc as (c0 & <- & Hc). rewrite Forall_forall in IH. destruct (IH c0 Hc k' x H) as (y & Hy & E).
    exists y. split; [|exact E]. apply (below_child _ c0); [exact Hc|exact Hy].
Qed.
(** Depth of everything below is relative to the top. *)
Definition level (n : node) (z : Z) := forall k x, below n k x -> n_depth x = z + Z.of_nat k.
Lemma level_bump n z : level n z -> level (bump n) (z + 1).
Proof. intros H k x B. destruct (below_bump n k x B) as (y & By & E). rewrite E, (H k y By). lia. Qed.
Lemma level_set_name s n z : level n z -> level (set_name s n) z.
Proof.
  intros H k x B. apply below_inv in B as [[-> ->]|(c & k' & -> & Hc & B)].
  - rewrite depth_set_name. apply (H 0%nat). constructor.
  - rewrite children_set_name in Hc. apply (H (S k')). apply (below_child _ c); assumption.
Qed.
Lemma level_children n z : n_depth n = z -> (forall c, In c (n_children n) -> level c (z + 1)) -> level n z.
Proof. intros D H k x B. apply below_inv in B as [[-> ->]|(c & k' & -> & Hc & B)]; [lia|]. rewrite (H c Hc k' x B). lia. Qed.
Theorem depths d : sequentials_in_modules d -> forall owner abs, level (construct owner abs d) 0.
Proof.
  assert (G : (sequentials_in_modules d -> forall owner abs, level (construct owner abs d) 0) /\
              (forall items, d = DSequential items -> Forall sequentials_in_modules items -> forall owner abs c, In c (n_children (construct owner abs d)) -> level c 2)).
  { induction d as [k|body IH|items IH] using decl_all; split.
    - intros _ owner abs. rewrite construct_layer. apply level_children; [reflexivity|intros c []].
    - intros items E. discriminate.
    - intros S owner abs. inversion S as [|b Hb Eb]; subst b. rewrite construct_mod. apply level_children; [reflexivity|]. intros c Hc. cbn [n_children] in Hc.
      apply in_map_iff in Hc as ([n e] & <- & He). rewrite Forall_forall in IH, Hb. destruct (IH _ He) as [I1 I2]. specialize (Hb _ He). cbn [fst snd] in *.
      unfold mod_child. cbn [fst snd].
      destruct e as [k|b|items]; [apply level_bump, level_set_name, I1; destruct Hb as [Hb|(i & E & _)]; [exact Hb|discriminate]..|].
      destruct Hb as [Hb|(i & E & Hi)]; [inversion Hb|]. injection E as <-. apply level_children; [reflexivity|].
      intros c Hc. apply (I2 items eq_refl Hi abs (join abs n)). rewrite construct_seq. exact Hc.
    - intros items E. discriminate.
    - intro S. inversion S.
    - intros l E. injection E as <-. intros Hi owner abs c Hc. rewrite construct_seq in Hc. cbn [n_children] in Hc. revert Hc. generalize 0.
      induction items as [|x l IHl]; intros i Hc; [destruct Hc|]. inversion IH; subst. inversion Hi; subst. cbn [seq_children] in Hc. destruct Hc as [<-|Hc].
      + apply (level_bump _ 1), (level_bump _ 0), level_set_name. match goal with h : _ /\ _ |- _ => apply (proj1 h) end. assumption.
      + exact (IHl ltac:(assumption) ltac:(assumption) _ Hc). }
  exact (proj1 G).
Qed.
End Depth.
