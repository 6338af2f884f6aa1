(** Splitting at special tokens. *)
From Verif Require Import Base DTypeModel ParamModel TensorModel TokModel TokSpec Utf8Proofs.
Local Open Scope Z_scope.

(** *** Every token set: the pieces make up the text *)
Lemma look_walk_range text ls : forall fuel ptr la start end_ skip ptr' start' end' skip',
  look_walk fuel text ls ptr la start end_ skip = (ptr', (start', (end', skip'))) ->
  0 <= la -> 0 <= end_ <= zlen text -> (start' = start \/ start' = ls) /\ 0 <= end' <= zlen text.
Proof.
  induction fuel as [|f IH]; intros ptr la start end_ skip ptr' start' end' skip' H Hla He; cbn [look_walk] in H.
  { injection H; intros; subst. auto. }
  destruct (la <? zlen text) eqn:E.
  2: { injection H; intros; subst. auto. }
  destruct (child ptr _) as [p|].
  2: { injection H; intros; subst. auto. }
  destruct (t_end p).
  - apply IH in H; [|lia|lia]. destruct H as [[H|H] H']; split; auto.
  - apply IH in H; [|lia|lia]. assumption.
Qed.
Definition starts_in (len : Z) (states : list (Z * trie)) : Prop := Forall (fun e => 0 <= fst e <= len) states.
Lemma look_all_range text current : 0 <= current < zlen text -> forall states start max_end skip start' max_end' skip',
  look_all text current states start max_end skip = (start', (max_end', skip')) ->
  starts_in (zlen text) states -> 0 <= start <= zlen text -> 0 <= max_end <= zlen text ->
  0 <= start' <= zlen text /\ 0 <= max_end' <= zlen text.
Proof.
  intros Hc. induction states as [|[ls ln] r IH]; intros start max_end skip start' max_end' skip' H Hs H1 H2; cbn [look_all] in H.
  { injection H; intros; subst. auto. }
  destruct (start <? ls). { injection H; intros; subst. auto. }
  inversion Hs; subst. cbn [fst] in *.
  destruct (look_walk _ _ _ _ _ _ _ _) as [ptr [s' [e' k']]] eqn:W.
  apply look_walk_range in W; [|destruct (ls <? start); lia|destruct (ls <? start); lia].
  destruct W as [W1 W2]. apply IH in H; auto.
  - destruct W1; subst; assumption.
  - destruct (t_end ptr && (max_end <? e')); assumption.
Qed.
Lemma scan_range text current c : 0 <= current < zlen text -> forall rest done gone skip states' new skip',
  scan_states text current c done rest gone skip = (states', (new, skip')) ->
  starts_in (zlen text) done -> starts_in (zlen text) rest ->
  starts_in (zlen text) states' /\ Forall (fun o => 0 <= o <= zlen text) new.
Proof.
  intros Hc. induction rest as [|[s n] r IH]; intros done gone skip states' new skip' H Hd Hr; cbn [scan_states] in H.
  { injection H; intros; subst. split; [|constructor]. unfold starts_in in *. rewrite Forall_forall in *. intros e He. apply filter_In in He as [He _]. auto. }
  inversion Hr as [|? ? Hs Hr']; subst. cbn [fst] in Hs.
  destruct (t_end n).
  - destruct (look_all _ _ _ _ _ _) as [start [max_end k']] eqn:E. injection H; intros; subst.
    apply look_all_range in E; [|assumption| |assumption|lia].
    + split; [constructor|]. destruct E. repeat constructor; assumption || lia.
    + unfold starts_in in *. apply Forall_app. split; assumption.
  - destruct (child n c).
    + apply IH in H; auto. unfold starts_in in *. apply Forall_app. split; [assumption|]. repeat constructor; cbn [fst]; lia.
    + apply IH in H; auto. unfold starts_in in *. apply Forall_app. split; [assumption|]. repeat constructor; cbn [fst]; lia.
Qed.
Lemma split_range root text : forall rest current states offsets skip states' offsets',
  split_loop root text current rest states offsets skip = (states', offsets') ->
  0 <= current -> current + zlen rest = zlen text -> starts_in (zlen text) states -> Forall (fun o => 0 <= o <= zlen text) offsets ->
  starts_in (zlen text) states' /\ exists more, offsets' = offsets ++ more /\ Forall (fun o => 0 <= o <= zlen text) more.
Proof.
  induction rest as [|c r IH]; intros current states offsets skip states' offsets' H Hc Hl Hs Ho; cbn [split_loop] in H.
  { injection H; intros; subst. split; [assumption|]. exists []. rewrite app_nil_r. split; [reflexivity|constructor]. }
  rewrite zlen_cons in Hl. pose proof (zlen_pos r).
  destruct (current <? skip). { apply IH in H; auto; lia. }
  destruct (scan_states _ _ _ _ _ _ _) as [states1 [new skip1]] eqn:E.
  apply scan_range in E; [|lia|constructor|assumption]. destruct E as [E1 E2].
  cbv zeta in H. apply IH in H; [|lia|lia| |].
  - destruct H as [H1 [more [-> H2]]]. split; [assumption|]. exists (new ++ more). rewrite <- app_assoc. split; [reflexivity|]. apply Forall_app. auto.
  - destruct (skip1 <=? current); [|assumption]. destruct (child root c); [|assumption].
    unfold starts_in in *. apply Forall_app. split; [assumption|]. repeat constructor; cbn [fst]; lia.
  - apply Forall_app. auto.
Qed.
Lemma final_range len : 0 <= len -> forall states, starts_in len states -> Forall (fun o => 0 <= o <= len) (final_offsets len states).
Proof.
  intros H0. induction states as [|[s n] r IH]; intros H; cbn [final_offsets]; [constructor|]. inversion H; subst. cbn [fst] in *.
  destruct (t_end n); [repeat constructor; lia|]. apply IH; assumption.
Qed.

Lemma insert_sorted_in x y l : In y (insert_sorted x l) <-> y = x \/ In y l.
Proof.
  induction l as [|z l IH]; cbn [insert_sorted]; [cbn [In]; intuition|].
  destruct (x <=? z); cbn [In]; [intuition|]. rewrite IH. intuition.
Qed.
Lemma sort_z_in y l : In y (sort_z l) <-> In y l.
Proof. induction l as [|x l IH]; [reflexivity|]. unfold sort_z in *. cbn [fold_right]. rewrite insert_sorted_in, IH. cbn [In]. intuition. Qed.
Inductive ascending : list Z -> Prop :=
| asc_nil : ascending []
| asc_one x : ascending [x]
| asc_cons x y l : x <= y -> ascending (y :: l) -> ascending (x :: y :: l).
Lemma insert_ascending x l : ascending l -> ascending (insert_sorted x l).
Proof.
  induction 1; cbn [insert_sorted].
  - constructor.
  - destruct (x <=? x0) eqn:E; repeat constructor; lia.
  - destruct (x <=? x0) eqn:E; [repeat constructor; auto; lia|]. cbn [insert_sorted] in IHascending.
    destruct (x <=? y) eqn:F; repeat constructor; auto; lia.
Qed.
Lemma sort_ascending l : ascending (sort_z l).
Proof. induction l; [constructor|]. unfold sort_z in *. cbn [fold_right]. apply insert_ascending. assumption. Qed.
Lemma insert_front x l : ascending (x :: l) -> insert_sorted x l = x :: l.
Proof. intros H. destruct l as [|y l]; [reflexivity|]. inversion H; subst. cbn [insert_sorted]. replace (x <=? y) with true by lia. reflexivity. Qed.
Lemma asc_tl x l : ascending (x :: l) -> ascending l.
Proof. intros H. inversion H; subst; [constructor|assumption]. Qed.
Lemma sort_id l : ascending l -> sort_z l = l.
Proof.
  induction l as [|x l IH]; intros H; [reflexivity|]. unfold sort_z in *. cbn [fold_right]. rewrite IH by (eapply asc_tl; eauto).
  apply insert_front. assumption.
Qed.
Lemma skipn_add {A} : forall n m (l : list A), skipn n (skipn m l) = skipn (m + n) l.
Proof. intros n. induction m as [|m IH]; intros l; [reflexivity|]. destruct l; [destruct n; reflexivity|]. cbn [skipn Nat.add]. apply IH. Qed.
Lemma pieces_ok text : forall offsets a, ascending (a :: offsets) -> Forall (fun o => 0 <= o <= zlen text) (a :: offsets) ->
  concat (pieces text (a :: offsets)) = skipn (Z.to_nat a) text /\ Forall (fun p => p <> []) (pieces text (a :: offsets)).
Proof.
  induction offsets as [|b offsets IH]; intros a Ha Hr.
  - cbn [pieces]. destruct (a =? zlen text) eqn:E.
    + split; [|constructor]. apply Z.eqb_eq in E. subst. unfold zlen. rewrite Nat2Z.id, skipn_all. reflexivity.
    + cbn [concat]. rewrite app_nil_r. split; [reflexivity|]. repeat constructor. intros K. apply (f_equal (@length Z)) in K.
      rewrite skipn_length in K. cbn [length] in K. inversion Hr; subst. unfold zlen in *. lia.
  - change (pieces text (a :: b :: offsets)) with (if a =? b then pieces text (b :: offsets) else substr text a (b - a) :: pieces text (b :: offsets)).
    inversion Hr; subst. inversion H2; subst. inversion Ha; subst.
    destruct (IH b) as [I1 I2]; [assumption|assumption|].
    destruct (a =? b) eqn:E.
    + apply Z.eqb_eq in E. subst. split; assumption.
    + cbn [concat]. rewrite I1. unfold substr. split.
      * replace (skipn (Z.to_nat b) text) with (skipn (Z.to_nat (b - a)) (skipn (Z.to_nat a) text)); [apply firstn_skipn|].
        rewrite skipn_add. f_equal. lia.
      * constructor; [|assumption]. intros K. apply (f_equal (@length Z)) in K. rewrite firstn_length, skipn_length in K. cbn [length] in K. unfold zlen in *. lia.
Qed.
Lemma trie_split_concat x text : concat (trie_split x text) = text /\ Forall (fun p => p <> []) (trie_split x text).
Proof.
  unfold trie_split, split_offsets. destruct (split_loop _ _ _ _ _ _ _) as [states offsets] eqn:E.
  assert (P := zlen_pos text).
  apply split_range in E; [|lia|lia|constructor|repeat constructor; lia].
  destruct E as [E1 [more [-> E2]]].
  set (l := sort_z (([0] ++ more) ++ final_offsets (zlen text) states)).
  assert (A : ascending l) by apply sort_ascending.
  assert (R : Forall (fun o => 0 <= o <= zlen text) l).
  { apply Forall_forall. intros o Ho. apply (proj1 (sort_z_in _ _)) in Ho. apply in_app_or in Ho as [Ho|Ho].
    - destruct Ho as [<-|Ho]; [lia|]. rewrite Forall_forall in E2. auto.
    - pose proof (final_range (zlen text) P states E1) as F. rewrite Forall_forall in F. auto. }
  assert (Z0 : In 0 l) by (apply (proj2 (sort_z_in _ _)); left; reflexivity).
  destruct l as [|a l]; [destruct Z0|].
  assert (a = 0).
  { inversion R; subst. destruct Z0 as [->|Z0]; [reflexivity|]. clear - A Z0 H1.
    assert (forall l a, ascending (a :: l) -> In 0 l -> a <= 0) as K.
    { induction l0 as [|b l0 IH]; intros a0 Ha Hi; [destruct Hi|]. inversion Ha as [| |? ? ? L1 L2]; subst. destruct Hi as [->|Hi]; [assumption|]. specialize (IH b L2 Hi). lia. }
    specialize (K l a A Z0). lia. }
  subst. apply (pieces_ok text l 0) in R; [|assumption]. exact R.
Qed.

(** *** What the trie holds *)
Fixpoint walk (t : trie) (w : list Z) : option trie :=
  match w with
  | [] => Some t
  | c :: r => match child t c with Some n => walk n r | None => None end
  end.
Definition accepts (t : trie) (w : list Z) : Prop := exists n, walk t w = Some n /\ t_end n = true.
Definition has (t : trie) (w : list Z) : Prop := exists n, walk t w = Some n.

Lemma assoc_set c d s ch : assoc d (set_child c s ch) = if c =? d then Some s else assoc d ch.
Proof.
  unfold set_child, assoc. cbn [find fst]. destruct (c =? d) eqn:E; [reflexivity|].
  replace (find (fun e : Z * trie => fst e =? d) (filter (fun e => negb (fst e =? c)) ch)) with (find (fun e : Z * trie => fst e =? d) ch); [reflexivity|].
  induction ch as [|e ch IH]; [reflexivity|]. cbn [find filter]. destruct (fst e =? c) eqn:F; cbn [negb].
  - destruct (fst e =? d) eqn:G; [lia|]. assumption.
  - cbn [find]. destruct (fst e =? d); [reflexivity|assumption].
Qed.
Lemma walk_empty w n : walk (Node false []) w = Some n -> w = [] /\ n = Node false [].
Proof. destruct w; cbn; [intros [= <-]; auto|discriminate]. Qed.
Lemma insert_has : forall u t w, has (trie_insert u t) w <-> has t w \/ is_prefix w u.
Proof.
  unfold has. induction u as [|c u IH]; intros t w; cbn [trie_insert].
  - destruct w as [|d w]; cbn [walk].
    + split; [intros _; left; exists t; reflexivity|intros _; eexists; reflexivity].
    + change (child (Node true (t_children t)) d) with (child t d). split; [auto|]. intros [H|[r H]]; [assumption|discriminate].
  - destruct w as [|d w]; cbn [walk].
    + split; [left; exists t; reflexivity|]. intros _. eexists; reflexivity.
    + unfold child at 1. cbn [t_children]. rewrite assoc_set. destruct (c =? d) eqn:E.
      * apply Z.eqb_eq in E. subst d. rewrite IH. unfold is_prefix. split.
        -- intros [[n Hn]|[r ->]]; [|right; exists r; reflexivity].
           destruct (child t c) as [s|]; [left; eauto|]. apply walk_empty in Hn as [-> _]. right. exists u. reflexivity.
        -- intros [[n Hn]|[r Hr]]; [|right; cbn [app] in Hr; injection Hr; eauto].
           left. destruct (child t c) as [s|]; [eauto|discriminate].
      * fold (child t d). split; [auto|]. intros [H|[r H]]; [assumption|]. cbn [app] in H. injection H; intros; lia.
Qed.
Lemma insert_accepts : forall u t w, accepts (trie_insert u t) w <-> accepts t w \/ w = u.
Proof.
  unfold accepts. induction u as [|c u IH]; intros t w; cbn [trie_insert].
  - destruct w as [|d w]; cbn [walk].
    + split; [auto|]. intros _. eexists. split; reflexivity.
    + change (child (Node true (t_children t)) d) with (child t d). split; [auto|]. intros [H|H]; [assumption|discriminate].
  - destruct w as [|d w]; cbn [walk].
    + split; [|intros [[n [[= <-] H]]|H]; [|discriminate]].
      * intros [n [[= <-] H]]. left. exists t. auto.
      * eexists. split; [reflexivity|]. exact H.
    + unfold child at 1. cbn [t_children]. rewrite assoc_set. destruct (c =? d) eqn:E.
      * apply Z.eqb_eq in E. subst d. rewrite IH. split.
        -- intros [[n [Hn En]]| ->]; [|right; reflexivity].
           destruct (child t c) as [s|]; [left; eauto|]. apply walk_empty in Hn as [_ ->]. discriminate.
        -- intros [[n [Hn En]]|Hr]; [|right; congruence].
           left. destruct (child t c) as [s|]; [eauto|discriminate].
      * fold (child t d). split; [auto|]. intros [H|H]; [assumption|]. injection H; intros; lia.
Qed.
Lemma update_root : forall T x w, ~ In [] T -> 
  (has (sp_root (split_update x T)) w <-> has (sp_root x) w \/ exists t, In t T /\ is_prefix w t) /\
  (accepts (sp_root (split_update x T)) w <-> accepts (sp_root x) w \/ In w T).
Proof.
  unfold split_update. induction T as [|t T IH]; intros x w N; cbn [fold_left].
  { split; [split; [auto|intros [H|[? [[] _]]]; assumption]|split; [auto|intros [H|[]]; assumption]]. }
  destruct (IH (split_add x t) w) as [I1 I2]; [intros K; apply N; right; assumption|].
  rewrite I1, I2. destruct t as [|c t]; [exfalso; apply N; left; reflexivity|].
  cbn [split_add sp_root]. rewrite insert_has, insert_accepts. split; split.
  - intros [[H|H]|[u [H1 H2]]]; [auto|right; exists (c :: t); split; [left; reflexivity|assumption]|right; exists u; split; [right; assumption|assumption]].
  - intros [H|[u [[<-|H1] H2]]]; [auto|auto|]. right. eauto.
  - intros [[H|H]|H]; [auto|right; left; congruence|right; right; assumption].
  - intros [H|[H|H]]; auto.
Qed.
Lemma tokens_update : forall T x w, w <> [] -> (In w (sp_tokens (split_update x T)) <-> In w (sp_tokens x) \/ In w T).
Proof.
  unfold split_update. induction T as [|t T IH]; intros x w N; cbn [fold_left In]; [intuition|].
  rewrite IH by assumption. destruct t as [|c t]; cbn [split_add sp_tokens In]; intuition congruence.
Qed.
Lemma walk_app t p q : walk t (p ++ q) = match walk t p with Some n => walk n q | None => None end.
Proof. revert t. induction p as [|c p IH]; intros t; [reflexivity|]. cbn [app walk]. destruct (child t c); [apply IH|reflexivity]. Qed.
Lemma has_app t p q : has t (p ++ q) -> has t p.
Proof. unfold has. rewrite walk_app. destruct (walk t p); [eauto|intros [? H]; discriminate]. Qed.

(** *** Token sets that cannot overlap *)
Section Clean.
Variable T : list (list Z).
Hypothesis HT : unambiguous T.
Variable root : trie.
Hypothesis Hhas : forall w, w <> [] -> (has root w <-> exists t, In t T /\ is_prefix w t).
Hypothesis Hacc : forall w, w <> [] -> (accepts root w <-> In w T).

(** Segments: (plain text, token) pairs. *)
Definition flat (segs : list (list Z * list Z)) : list Z := concat (map (fun s => fst s ++ snd s) segs).
Fixpoint offs (base : Z) (segs : list (list Z * list Z)) : list Z :=
  match segs with
  | [] => []
  | (p, t) :: r => (base + zlen p) :: (base + zlen p + zlen t) :: offs (base + zlen p + zlen t) r
  end.
Lemma flat_app a b : flat (a ++ b) = flat a ++ flat b.
Proof. unfold flat. rewrite map_app, concat_app. reflexivity. Qed.
Lemma flat_one p t : flat [(p, t)] = p ++ t.
Proof. unfold flat. cbn [map concat fst snd]. apply app_nil_r. Qed.
Lemma offs_app : forall a base b, offs base (a ++ b) = offs base a ++ offs (base + zlen (flat a)) b.
Proof.
  induction a as [|[p t] a IH]; intros base b; cbn [app offs].
  - change (zlen (flat [])) with 0. rewrite Z.add_0_r. reflexivity.
  - rewrite IH. do 4 f_equal. change (flat ((p, t) :: a)) with (flat ([(p, t)] ++ a)). rewrite flat_app, flat_one, !zlen_app. lia.
Qed.
Definition listed (segs : list (list Z * list Z)) (a t : list Z) : Prop :=
  exists s1 p s2, segs = s1 ++ (p, t) :: s2 /\ a = flat s1 ++ p.
Lemma listed_app segs more a t : listed segs a t -> listed (segs ++ more) a t.
Proof. intros [s1 [p [s2 [-> H]]]]. exists s1, p, (s2 ++ more). rewrite <- app_assoc. split; [reflexivity|assumption]. Qed.

Lemma head_not_inner q c : q <> [] -> has root (q ++ [c]) -> child root c = None.
Proof.
  intros Hq Hh. destruct (child root c) as [n|] eqn:E; [|reflexivity]. exfalso.
  assert (Hc : has root [c]) by (exists n; cbn [walk]; rewrite E; reflexivity).
  apply Hhas in Hc; [|discriminate]. destruct Hc as [t [Ht [r Hr]]]. cbn [app] in Hr.
  apply Hhas in Hh; [|destruct q; discriminate]. destruct Hh as [u [Hu [r' Hr']]].
  destruct HT as [_ [_ H3]]. destruct q as [|d q]; [congruence|]. subst. cbn [app] in Hu.
  apply (H3 c r d ((q ++ [c]) ++ r')); auto. apply in_or_app. left. apply in_or_app. right. left. reflexivity.
Qed.
Lemma token_not_longer q c : In q T -> ~ has root (q ++ [c]).
Proof.
  intros Hq Hh. apply Hhas in Hh; [|destruct q; discriminate]. destruct Hh as [u [Hu [r Hr]]].
  destruct HT as [_ [H2 _]]. assert (q = u) by (apply H2; auto; exists ([c] ++ r); rewrite Hr, <- app_assoc; reflexivity).
  apply (f_equal (@length Z)) in H. rewrite Hr, !app_length in H. cbn [length] in H. lia.
Qed.
Lemma token_nonempty t : In t T -> t <> []. Proof. apply HT. Qed.

(** The state of the scan behind [before]. *)
Definition inv (before : list Z) (states : list (Z * trie)) (offsets : list Z) : Prop :=
  exists segs tail, before = flat segs ++ tail /\ offsets = 0 :: offs 0 segs /\ Forall (fun s => In (snd s) T) segs /\
    (forall a t b, before = a ++ t ++ b -> In t T -> b <> [] -> listed segs a t) /\
    ((states = [] /\ forall p q, before = p ++ q -> q <> [] -> ~ has root q) \/
     exists r q n, tail = r ++ q /\ q <> [] /\ walk root q = Some n /\ states = [(zlen (flat segs ++ r), n)] /\
       forall p' q', before = p' ++ q' -> q' <> [] -> has root q' -> q' = q).

Lemma snoc_split {A} (before : list A) c a b : before ++ [c] = a ++ b -> b <> [] -> exists b', b = b' ++ [c] /\ before = a ++ b'.
Proof.
  intros E N. destruct (exists_last N) as [b' [x ->]]. rewrite app_assoc in E. apply app_inj_tail in E as [-> ->]. eauto.
Qed.
Lemma app_len_inj {A} (a b c d : list A) : a ++ b = c ++ d -> length b = length d -> a = c /\ b = d.
Proof.
  intros E L. apply (f_equal (@length A)) in E as L'. rewrite !app_length in L'. 
  assert (H : length a = length c) by lia. clear L L'. revert c E H. induction a as [|x a IH]; intros [|y c] E H; try discriminate; [auto|].
  cbn [app] in E. injection E; intros E2 ->. cbn [length] in H. destruct (IH c E2) as [-> ->]; [lia|]. auto.
Qed.

Lemma step_ok text before c r states offsets :
  text = before ++ c :: r -> inv before states offsets ->
  forall k, k = (let '(states1, (new, skip1)) := scan_states text (zlen before) c [] states [] 0 in
     let states2 := if skip1 <=? zlen before then match child root c with Some n => states1 ++ [(zlen before, n)] | None => states1 end else states1 in
     (states2, (offsets ++ new, skip1))) ->
  exists states2 offsets2, k = (states2, (offsets2, 0)) /\ inv (before ++ [c]) states2 offsets2.
Proof.
  intros Et [segs [tail [Eb [Eo [Hsegs [Hocc Hst]]]]]] k Hk.
  assert (P := zlen_pos before).
  (* a fresh state at the present character *)
  assert (Fresh : forall segs', before = flat segs' ++ skipn (length (flat segs')) before -> Forall (fun s => In (snd s) T) segs' ->
     (forall a t b, before ++ [c] = a ++ t ++ b -> In t T -> b <> [] -> listed segs' a t) ->
     (forall q, q <> [] -> (exists p, before = p ++ q) -> ~ has root (q ++ [c])) ->
     inv (before ++ [c]) (match child root c with Some n => [(zlen before, n)] | None => [] end) (0 :: offs 0 segs')).
  { intros segs' E1 E2 E3 E4. set (tl := skipn (length (flat segs')) before) in *. exists segs', (tl ++ [c]).
    split; [rewrite app_assoc, <- E1; reflexivity|]. split; [reflexivity|]. split; [assumption|]. split; [assumption|].
    assert (Q : forall p q, before ++ [c] = p ++ q -> q <> [] -> has root q -> q = [c]).
    { intros p q Ep Nq Hq. apply snoc_split in Ep as [q' [-> Ep]]; [|assumption]. destruct q' as [|d q']; [reflexivity|].
      exfalso. apply (E4 (d :: q')); [discriminate|eauto|assumption]. }
    destruct (child root c) as [n|] eqn:Ec.
    - right. exists tl, [c], n. split; [reflexivity|]. split; [discriminate|]. split; [cbn [walk]; rewrite Ec; reflexivity|]. split; [rewrite <- E1; reflexivity|assumption].
    - left. split; [reflexivity|]. intros p q Ep Nq Hq. pose proof (Q p q Ep Nq Hq). subst q. destruct Hq as [n Hn]. cbn [walk] in Hn. rewrite Ec in Hn. discriminate. }
  assert (SkipTail : before = flat segs ++ skipn (length (flat segs)) before).
  { rewrite Eb, skipn_app, skipn_all, Nat.sub_diag. reflexivity. }
  destruct Hst as [[-> Hno]|[rr [q [n [Etail [Nq [Hw [-> Huniq]]]]]]]].
  - (* no state *)
    cbn [scan_states filter] in Hk. cbv zeta in Hk. replace (0 <=? zlen before) with true in Hk by lia. cbn [app] in Hk.
    rewrite app_nil_r in Hk. subst k. eexists _, _. split; [reflexivity|]. rewrite Eo.
    apply Fresh; auto.
    + intros a t b Eab Ht Nb. apply snoc_split in Eab as [b1 [Eb1 Eab]]; [|destruct t; [destruct b|]; discriminate || congruence].
      apply snoc_split in Eb1 as [] || idtac.
      destruct (exists_last Nb) as [b' [x ->]]. rewrite app_assoc in Eb1. apply app_inj_tail in Eb1 as [<- ->].
      destruct b' as [|y b']; [|apply Hocc with (b := y :: b'); auto; discriminate].
      exfalso. rewrite app_nil_r in Eab. apply (Hno a t Eab); [apply token_nonempty; assumption|].
      apply Hhas; [apply token_nonempty; assumption|]. exists t. split; [assumption|]. exists []. rewrite app_nil_r. reflexivity.
    + intros q Nq [p Ep] Hq. apply (Hno p q Ep Nq). eapply has_app; eauto.
  - cbn [scan_states app] in Hk.
    assert (Hq : has root q) by (exists n; assumption).
    assert (Hqend : t_end n = true <-> In q T).
    { rewrite <- Hacc by assumption. unfold accepts. rewrite Hw. split; [eauto|]. intros [m [[= <-] E]]. assumption. }
    assert (Ebq : before = (flat segs ++ rr) ++ q) by (rewrite Eb, Etail, app_assoc; reflexivity).
    assert (Hc : has root (q ++ [c]) <-> exists n', child n c = Some n').
    { unfold has. rewrite walk_app, Hw. cbn [walk]. destruct (child n c); [split; eauto|split; intros [? K]; discriminate]. }
    assert (Occ : forall a t b, before ++ [c] = a ++ t ++ b -> In t T -> b <> [] -> listed segs a t \/ (a = flat segs ++ rr /\ t = q)).
    { intros a t b Eab Ht Nb. destruct (exists_last Nb) as [b' [x ->]]. rewrite !app_assoc in Eab. apply app_inj_tail in Eab as [Eab <-].
      destruct b' as [|y b']; [|left; apply Hocc with (b := y :: b'); auto; [rewrite Eab, <- app_assoc; reflexivity|discriminate]].
      rewrite app_nil_r in Eab. right.
      assert (t = q).
      { apply (Huniq a t Eab); [apply token_nonempty; assumption|]. apply Hhas; [apply token_nonempty; assumption|]. exists t. split; [assumption|]. exists []. rewrite app_nil_r. reflexivity. }
      subst t. rewrite Ebq in Eab. apply app_len_inj in Eab as [<- _]; auto. }
    destruct (t_end n) eqn:En.
    + (* a token is complete *)
      assert (HqT : In q T) by (apply Hqend; reflexivity).
      assert (Nc : child n c = None).
      { destruct (child n c) eqn:Ec; [|reflexivity]. exfalso. apply (token_not_longer q c HqT). apply Hc. eauto. }
      cbn [look_all] in Hk. rewrite Z.ltb_irrefl in Hk.
      assert (Lw : look_walk (S (length text)) text (zlen (flat segs ++ rr)) n (zlen before) (zlen (flat segs ++ rr)) (zlen before) 0
               = (n, (zlen (flat segs ++ rr), (zlen before, 0)))).
      { cbn [look_walk]. replace (zlen before <? zlen text) with true by (rewrite Et, zlen_app, zlen_cons; pose proof (zlen_pos r); lia).
        replace (nth (Z.to_nat (zlen before)) text 0) with c; [rewrite Nc; reflexivity|].
        rewrite Et. unfold zlen. rewrite Nat2Z.id, app_nth2, Nat.sub_diag by lia. reflexivity. }
      rewrite Lw in Hk. cbn [look_all] in Hk. rewrite En, Z.ltb_irrefl in Hk. cbn [andb] in Hk.
      cbv zeta in Hk. replace (0 <=? zlen before) with true in Hk by lia. cbn [app] in Hk.
      subst k. eexists _, _. split; [reflexivity|].
      replace (offsets ++ [zlen (flat segs ++ rr); zlen before]) with (0 :: offs 0 (segs ++ [(rr, q)])).
      2: { rewrite Eo, offs_app. cbn [app offs]. do 3 f_equal; [rewrite zlen_app; lia|]. f_equal. rewrite Ebq, !zlen_app. lia. }
      assert (Ef : flat (segs ++ [(rr, q)]) = before) by (rewrite flat_app, flat_one, Ebq, app_assoc; reflexivity).
      apply Fresh.
      * rewrite Ef, skipn_all, app_nil_r. reflexivity.
      * apply Forall_app. split; [assumption|]. repeat constructor. assumption.
      * intros a t b Eab Ht Nb. destruct (Occ a t b Eab Ht Nb) as [L|[-> ->]]; [apply listed_app; assumption|].
        exists segs, rr, []. split; reflexivity.
      * intros q' Nq' [p' Ep'] Hq'. assert (q' = q) by (apply (Huniq p' q' Ep' Nq'); eapply has_app; eauto). subst q'.
        apply (token_not_longer q c); assumption.
    + assert (Occ' : forall a t b, before ++ [c] = a ++ t ++ b -> In t T -> b <> [] -> listed segs a t).
      { intros a t b Eab Ht Nb. destruct (Occ a t b Eab Ht Nb) as [L|[-> ->]]; [assumption|]. exfalso. apply Hqend in Ht. congruence. }
      destruct (child n c) as [n'|] eqn:Ec.
      * (* the token goes on *)
        cbn [scan_states app filter existsb negb] in Hk. cbv zeta in Hk.
        assert (Hqc : has root (q ++ [c])) by (apply Hc; eauto).
        rewrite (head_not_inner q c Nq Hqc) in Hk. rewrite app_nil_r in Hk.
        replace (0 <=? zlen before) with true in Hk by lia.
        subst k. eexists _, _. split; [reflexivity|].
        exists segs, (tail ++ [c]). split; [rewrite app_assoc, <- Eb; reflexivity|]. split; [assumption|]. split; [assumption|]. split; [assumption|].
        right. exists rr, (q ++ [c]), n'. split; [rewrite Etail, <- app_assoc; reflexivity|]. split; [destruct q; discriminate|].
        split; [rewrite walk_app, Hw; cbn [walk]; rewrite Ec; reflexivity|]. split; [reflexivity|].
        intros p' q' Ep Nq' Hq'. apply snoc_split in Ep as [q1 [-> Ep]]; [|assumption]. destruct q1 as [|d q1].
        -- exfalso. destruct Hq' as [m Hm]. cbn [app walk] in Hm. rewrite (head_not_inner q c Nq Hqc) in Hm. discriminate.
        -- f_equal. apply (Huniq p'); [assumption|discriminate|]. eapply has_app; eauto.
      * (* the attempt fails *)
        cbn [scan_states app filter existsb fst negb] in Hk. rewrite Z.eqb_refl in Hk. cbn [orb negb] in Hk. cbv zeta in Hk.
        replace (0 <=? zlen before) with true in Hk by lia. rewrite app_nil_r in Hk. cbn [app] in Hk.
        subst k. eexists _, _. split; [reflexivity|]. rewrite Eo. apply Fresh; auto.
        intros q' Nq' [p' Ep'] Hq'. assert (q' = q) by (apply (Huniq p' q' Ep' Nq'); eapply has_app; eauto). subst q'.
        apply Hc in Hq' as [n' K]. discriminate.
Qed.
Lemma loop_ok text : forall rest before states offsets, text = before ++ rest -> inv before states offsets ->
  inv text (fst (split_loop root text (zlen before) rest states offsets 0)) (snd (split_loop root text (zlen before) rest states offsets 0)).
Proof.
  induction rest as [|c r IH]; intros before states offsets Et Hi; cbn [split_loop].
  { cbn [fst snd]. rewrite app_nil_r in Et. subst. assumption. }
  assert (P := zlen_pos before). replace (zlen before <? 0) with false by lia.
  destruct (step_ok text before c r states offsets Et Hi _ eq_refl) as [states2 [offsets2 [E Hi2]]].
  destruct (scan_states text (zlen before) c [] states [] 0) as [states1 [new skip1]].
  cbv zeta in *. injection E. intros Es Eo2 Est. rewrite Est, Eo2, Es.
  replace (zlen before + 1) with (zlen (before ++ [c])) by (rewrite zlen_app; reflexivity).
  apply IH; [rewrite <- app_assoc; exact Et|exact Hi2].
Qed.
Lemma offsets_ok text : exists segs tail, text = flat segs ++ tail /\ Forall (fun s => In (snd s) T) segs /\
  (let '(states, offsets) := split_loop root text 0 text [] [0] 0 in offsets ++ final_offsets (zlen text) states) = 0 :: offs 0 segs /\
  forall a t b, text = a ++ t ++ b -> In t T -> listed segs a t.
Proof.
  assert (I0 : inv [] [] [0]).
  { exists [], []. split; [reflexivity|]. split; [reflexivity|]. split; [constructor|]. split.
    - intros a t b E _ Nb. exfalso. destruct a; [|discriminate]. destruct t; [|discriminate]. cbn [app] in E. congruence.
    - left. split; [reflexivity|]. intros p q E Nq. exfalso. destruct p; [cbn [app] in E; congruence|discriminate]. }
  pose proof (loop_ok text text [] [] [0] eq_refl I0) as H. change (zlen (@nil Z)) with 0 in H.
  destruct (split_loop root text 0 text [] [0] 0) as [states offsets]. cbn [fst snd] in H.
  destruct H as [segs [tail [Eb [Eo [Hsegs [Hocc Hst]]]]]].
  assert (Hself : forall t, In t T -> has root t).
  { intros t Ht. apply Hhas; [apply token_nonempty; assumption|]. exists t. split; [assumption|]. exists []. rewrite app_nil_r. reflexivity. }
  destruct Hst as [[-> Hno]|[rr [q [n [Etail [Nq [Hw [-> Huniq]]]]]]]].
  - exists segs, tail. split; [assumption|]. split; [assumption|]. split; [cbn [final_offsets]; rewrite app_nil_r; assumption|].
    intros a t b E Ht. destruct b as [|x b]; [|eapply Hocc; eauto; discriminate].
    exfalso. rewrite app_nil_r in E. apply (Hno a t E); [apply token_nonempty|]; auto.
  - assert (Ebq : text = (flat segs ++ rr) ++ q) by (rewrite Eb, Etail, app_assoc; reflexivity).
    assert (Hqend : t_end n = true <-> In q T).
    { rewrite <- Hacc by assumption. unfold accepts. rewrite Hw. split; [eauto|]. intros [m [[= <-] E]]. assumption. }
    assert (Last : forall a t, text = a ++ t -> In t T -> a = flat segs ++ rr /\ t = q).
    { intros a t E Ht. assert (t = q) by (apply (Huniq a t E); [apply token_nonempty; assumption|auto]). subst t.
      rewrite Ebq in E. apply app_len_inj in E as [<- _]; auto. }
    cbn [final_offsets]. destruct (t_end n) eqn:En.
    + exists (segs ++ [(rr, q)]), []. split; [rewrite app_nil_r, flat_app, flat_one, Ebq, app_assoc; reflexivity|].
      split; [apply Forall_app; split; [assumption|repeat constructor; apply Hqend; reflexivity]|]. split.
      * rewrite Eo, offs_app. cbn [app offs]. f_equal. f_equal. rewrite Ebq, !zlen_app. repeat (f_equal; try lia).
      * intros a t b E Ht. destruct b as [|x b]; [|apply listed_app; eapply Hocc; eauto; discriminate].
        rewrite app_nil_r in E. destruct (Last a t E Ht) as [-> ->]. exists segs, rr, []. split; reflexivity.
    + exists segs, tail. split; [assumption|]. split; [assumption|]. split; [rewrite app_nil_r; assumption|].
      intros a t b E Ht. destruct b as [|x b]; [|eapply Hocc; eauto; discriminate].
      rewrite app_nil_r in E. destruct (Last a t E Ht) as [-> ->]. exfalso. apply Hqend in Ht. congruence.
Qed.

(** The pieces of a segmentation. *)
Definition opt (p : list Z) : list (list Z) := match p with [] => [] | _ => [p] end.
Fixpoint out (segs : list (list Z * list Z)) (tail : list Z) : list (list Z) :=
  match segs with
  | [] => opt tail
  | (p, t) :: r => opt p ++ t :: out r tail
  end.
Lemma pieces_out text : forall segs tail before, text = before ++ flat segs ++ tail -> Forall (fun s => In (snd s) T) segs ->
  pieces text (zlen before :: offs (zlen before) segs) = out segs tail.
Proof.
  induction segs as [|[p t] segs IH]; intros tail before E H.
  - cbn [offs pieces out]. cbn [flat map concat app] in E. change (flat [] ++ tail) with tail in E. rewrite E at 1. rewrite zlen_app.
    destruct tail as [|x tail].
    + change (zlen (@nil Z)) with 0. replace (_ =? _) with true by lia. reflexivity.
    + rewrite zlen_cons. pose proof (zlen_pos tail). replace (_ =? _) with false by lia. cbn [opt]. f_equal.
      rewrite E. unfold zlen. rewrite Nat2Z.id, skipn_app, skipn_all, Nat.sub_diag. reflexivity.
  - inversion H as [|? ? H1 H2]; subst x l. cbn [snd] in H1. cbn [offs].
    change (flat ((p, t) :: segs)) with (flat ([(p, t)] ++ segs)) in E. rewrite flat_app, flat_one in E.
    assert (Nt : t <> []) by (apply token_nonempty; assumption).
    set (o1 := zlen before + zlen p). set (o2 := o1 + zlen t).
    change (pieces text (zlen before :: o1 :: o2 :: offs o2 segs)) with
      (if zlen before =? o1 then pieces text (o1 :: o2 :: offs o2 segs) else substr text (zlen before) (o1 - zlen before) :: pieces text (o1 :: o2 :: offs o2 segs)).
    change (pieces text (o1 :: o2 :: offs o2 segs)) with
      (if o1 =? o2 then pieces text (o2 :: offs o2 segs) else substr text o1 (o2 - o1) :: pieces text (o2 :: offs o2 segs)).
    replace (o1 =? o2) with false by (unfold o2; destruct t; [congruence|]; rewrite zlen_cons; pose proof (zlen_pos t); lia).
    assert (E2 : o2 = zlen ((before ++ p) ++ t)) by (unfold o2, o1; rewrite !zlen_app; lia).
    rewrite E2. rewrite (IH tail) by (assumption || (rewrite E, <- !app_assoc; reflexivity)). rewrite <- E2.
    assert (Mid : forall (l a b c : list Z) i n, l = a ++ b ++ c -> i = zlen a -> n = zlen b -> substr l i n = b).
    { intros l a b c i n -> -> ->. unfold substr, zlen. rewrite !Nat2Z.id, skipn_app, skipn_all, Nat.sub_diag. cbn [skipn app].
      rewrite firstn_app, firstn_all, Nat.sub_diag. apply app_nil_r. }
    rewrite (Mid text (before ++ p) t (flat segs ++ tail) o1); [|rewrite E, <- !app_assoc; reflexivity|unfold o1; rewrite zlen_app; reflexivity|unfold o2; lia].
    rewrite (Mid text before p (t ++ flat segs ++ tail) (zlen before)); [|rewrite E, <- !app_assoc; reflexivity|reflexivity|unfold o1; lia].
    cbn [out]. destruct p as [|x p].
    + replace (zlen before =? o1) with true by (unfold o1; change (zlen (@nil Z)) with 0; lia). reflexivity.
    + replace (zlen before =? o1) with false by (unfold o1; rewrite zlen_cons; pose proof (zlen_pos p); lia). reflexivity.
Qed.
Lemma offs_asc : forall segs base, ascending (base :: offs base segs).
Proof.
  induction segs as [|[p t] segs IH]; intros base; [constructor|]. cbn [offs]. pose proof (zlen_pos p). pose proof (zlen_pos t).
  constructor; [lia|]. constructor; [lia|]. apply IH.
Qed.
Lemma out_concat : forall segs tail, concat (out segs tail) = flat segs ++ tail.
Proof.
  assert (O : forall p l, concat (opt p ++ l) = p ++ concat l) by (intros [|x p] l; reflexivity).
  induction segs as [|[p t] segs IH]; intros tail; cbn [out].
  - rewrite <- (app_nil_r (opt tail)), O. cbn [concat]. rewrite app_nil_r. reflexivity.
  - rewrite O. cbn [concat]. rewrite IH. change (flat ((p, t) :: segs)) with (flat ([(p, t)] ++ segs)). rewrite flat_app, flat_one, <- !app_assoc. reflexivity.
Qed.
Lemma out_app : forall s1 s2 tail, out (s1 ++ s2) tail = out s1 [] ++ out s2 tail.
Proof. induction s1 as [|[p t] s1 IH]; intros s2 tail; [reflexivity|]. cbn [app out]. rewrite IH, <- app_assoc. reflexivity. Qed.

Section Seg.
Variable segs : list (list Z * list Z).
Variable tail : list Z.
Hypothesis Hsegs : Forall (fun s => In (snd s) T) segs.
Hypothesis Hall : forall a t b, flat segs ++ tail = a ++ t ++ b -> In t T -> listed segs a t.

Lemma flat_len_in s1 p t s2 : (length (flat (s1 ++ (p, t) :: s2)) = length (flat s1) + length p + length t + length (flat s2))%nat.
Proof. rewrite flat_app, app_length. change (flat ((p, t) :: s2)) with (flat ([(p, t)] ++ s2)). rewrite flat_app, flat_one, !app_length. lia. Qed.
(** Two decompositions of the segment list. *)
Lemma split_cmp {A} (s1 s2 s1' s2' : list A) x y : s1 ++ x :: s2 = s1' ++ y :: s2' ->
  (s1 = s1' /\ x = y /\ s2 = s2') \/ (exists m, s1' = s1 ++ x :: m) \/ (exists m, s1 = s1' ++ y :: m).
Proof.
  revert s1'. induction s1 as [|a s1 IH]; intros [|b s1'] E; cbn [app] in E.
  - left. injection E; auto.
  - right; left. injection E; intros; subst. exists s1'. reflexivity.
  - right; right. injection E; intros; subst. exists s1. reflexivity.
  - injection E; intros E2 ->. destruct (IH s1' E2) as [[-> [-> ->]]|[[m ->]|[m ->]]]; [left; auto|right; left|right; right]; exists m; reflexivity.
Qed.
Lemma plain_clean s1 p t0 s2 t : segs = s1 ++ (p, t0) :: s2 -> In t T -> ~ occurs_in t p.
Proof.
  intros E Ht [a [b Ep]].
  destruct (Hall (flat s1 ++ a) t (b ++ t0 ++ flat s2 ++ tail)) as [s1' [p' [s2' [E' Ea]]]]; [|assumption|].
  { rewrite E, flat_app. change (flat ((p, t0) :: s2)) with (flat ([(p, t0)] ++ s2)). rewrite flat_app, flat_one, Ep, <- !app_assoc. reflexivity. }
  assert (Nt : (0 < length t)%nat) by (pose proof (token_nonempty t Ht); destruct t; [congruence|cbn [length]; lia]).
  apply (f_equal (@length Z)) in Ea as L. apply (f_equal (@length Z)) in Ep as L2. rewrite !app_length in L, L2.
  rewrite E in E'. apply split_cmp in E' as [[<- [[= <- _] _]]|[[m ->]|[m ->]]].
  - lia.
  - rewrite flat_len_in in L. lia.
  - rewrite flat_len_in in L. lia.
Qed.
Lemma tail_clean t : In t T -> ~ occurs_in t tail.
Proof.
  intros Ht [a [b Ep]].
  destruct (Hall (flat segs ++ a) t b) as [s1' [p' [s2' [E' Ea]]]]; [|assumption|].
  { rewrite Ep, <- !app_assoc. reflexivity. }
  assert (Nt : (0 < length t)%nat) by (pose proof (token_nonempty t Ht); destruct t; [congruence|cbn [length]; lia]).
  apply (f_equal (@length Z)) in Ea as L. rewrite !app_length in L. rewrite E', flat_len_in in L. lia.
Qed.
Lemma token_not_plain t : In t T -> ~ plain_piece T t.
Proof. intros Ht [_ H]. apply (H t Ht). exists [], []. rewrite app_nil_r. reflexivity. Qed.
Lemma out_pieces : forall s2 s1, segs = s1 ++ s2 -> Forall (fun p => In p T \/ plain_piece T p) (out s2 tail).
Proof.
  induction s2 as [|[p t] s2 IH]; intros s1 E; cbn [out].
  - pose proof tail_clean as TC. destruct tail as [|x tl]; [constructor|]. constructor; [|constructor]. right. split; [discriminate|]. exact TC.
  - apply Forall_app. split.
    + destruct p as [|x p]; [constructor|]. constructor; [|constructor]. right. split; [discriminate|]. intros u Hu. eapply plain_clean; eauto.
    + constructor.
      * left. rewrite E in Hsegs. apply Forall_app in Hsegs as [_ H]. inversion H; subst. assumption.
      * apply (IH (s1 ++ [(p, t)])). rewrite <- app_assoc. assumption.
Qed.
Lemma nta_cons {A} (P : A -> Prop) x l : no_two_adjacent P l -> (forall y, hd_error l = Some y -> ~ (P x /\ P y)) -> no_two_adjacent P (x :: l).
Proof.
  intros H H1 [|a0 a] u v b E; cbn [app] in E; injection E; intros; subst.
  - apply H1. reflexivity.
  - eapply H; reflexivity.
Qed.
Lemma nta_nil {A} (P : A -> Prop) : no_two_adjacent P [].
Proof. intros a x y b E. destruct a; discriminate. Qed.
Lemma out_adjacent : forall s, Forall (fun s => In (snd s) T) s -> no_two_adjacent (plain_piece T) (out s tail).
Proof.
  induction s as [|[p t] s IH]; intros H; cbn [out].
  - destruct tail; [apply nta_nil|]. apply nta_cons; [apply nta_nil|]. cbn [hd_error]. discriminate.
  - inversion H as [|? ? H1 H2]; subst. cbn [snd] in H1. assert (Tt : no_two_adjacent (plain_piece T) (t :: out s tail)).
    { apply nta_cons; [apply IH; assumption|]. intros y _ [K _]. exact (token_not_plain t H1 K). }
    destruct p; cbn [opt app]; [assumption|]. apply nta_cons; [assumption|]. intros y [= <-] [_ K]. exact (token_not_plain t H1 K).
Qed.
Lemma out_occurrence a t b : flat segs ++ tail = a ++ t ++ b -> In t T -> exists ps1 ps2, out segs tail = ps1 ++ t :: ps2 /\ concat ps1 = a.
Proof.
  intros E Ht. destruct (Hall a t b E Ht) as [s1 [p [s2 [Es Ea]]]].
  exists (out s1 [] ++ opt p), (out s2 tail). split.
  - rewrite Es, out_app. cbn [out]. rewrite <- app_assoc. reflexivity.
  - rewrite concat_app, out_concat, app_nil_r, Ea. f_equal. destruct p; [reflexivity|]. cbn [opt concat]. apply app_nil_r.
Qed.
End Seg.
End Clean.

Lemma trie_split_clean T text : unambiguous T ->
  let ps := trie_split (split_update split_empty T) text in
  Forall (fun p => In p T \/ plain_piece T p) ps /\ no_two_adjacent (plain_piece T) ps /\
  forall a t b, text = a ++ t ++ b -> In t T -> exists ps1 ps2, ps = ps1 ++ t :: ps2 /\ concat ps1 = a.
Proof.
  intros HT. cbv zeta.
  assert (N : ~ In [] T) by (intros K; apply (proj1 HT) in K; congruence).
  assert (Hh : forall w, w <> [] -> (has (sp_root (split_update split_empty T)) w <-> exists t, In t T /\ is_prefix w t)).
  { intros w Nw. destruct (update_root T split_empty w N) as [H _]. rewrite H. split; [|auto]. intros [[n K]|K]; [|assumption].
    exfalso. apply walk_empty in K as [K _]. congruence. }
  assert (Ha : forall w, w <> [] -> (accepts (sp_root (split_update split_empty T)) w <-> In w T)).
  { intros w Nw. destruct (update_root T split_empty w N) as [_ H]. rewrite H. split; [|auto]. intros [[n [K _]]|K]; [|assumption].
    exfalso. apply walk_empty in K as [K _]. congruence. }
  destruct (offsets_ok T HT _ Hh Ha text) as [segs [tail [Et [Hs [Eo Hall]]]]].
  assert (E : trie_split (split_update split_empty T) text = out segs tail).
  { unfold trie_split, split_offsets. destruct (split_loop _ text 0 text [] [0] 0) as [states offsets].
    rewrite Eo. rewrite sort_id by (eapply offs_asc; eassumption).
    change 0 with (zlen (@nil Z)). eapply pieces_out; eassumption. }
  rewrite E. rewrite Et in Hall. split; [|split].
  - eapply (fun h => out_pieces T HT _ Hh Ha segs tail Hs Hall segs [] h) || eapply out_pieces with (segs := segs) (s1 := []); try eassumption; reflexivity.
  - eapply out_adjacent; eassumption.
  - intros a t b Eab Ht. rewrite Et in Eab. eapply out_occurrence; eassumption.
Qed.
