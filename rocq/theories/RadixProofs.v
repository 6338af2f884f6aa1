(** Proofs about the prefix tree model. *)
From Verif Require Import Base RadixModel RadixSpec.
Local Open Scope Z_scope.

Lemma node_ind' (P : node -> Prop) :
  (forall k x v cs, Forall P cs -> P (Node k x v cs)) -> forall n, P n.
Proof.
  intro H. fix IH 1. intros [k x v cs]. apply H.
  induction cs as [|c r IHr]; constructor; [apply IH | exact IHr].
Qed.

(** ** Picking the matching child *)
Fixpoint pick (e : Z) (q : list Z) (l : list node) : option (list node * node * list node) :=
  match l with
  | [] => None
  | c :: r => if (matched_length e q (nextra c) (ntoks c) =? 0)%nat
              then match pick e q r with Some (p, d, s) => Some (c :: p, d, s) | None => None end
              else Some ([], c, r)
  end.

Notation ml e q c := (matched_length e q (nextra c) (ntoks c)).

Lemma pick_some e q l p c s : pick e q l = Some (p, c, s) ->
  l = p ++ c :: s /\ (0 < ml e q c)%nat /\ forall d, In d p -> ml e q d = O.
Proof.
  revert p. induction l as [|d r IH]; intros p; cbn [pick]; [discriminate|].
  destruct (Nat.eqb_spec (ml e q d) 0) as [E|E].
  - destruct (pick e q r) as [[[p' c'] s']|]; [|discriminate].
    intro H; injection H as <- <- <-. destruct (IH p' eq_refl) as (-> & Hm & Hp).
    split; [reflexivity|]. split; [exact Hm|]. intros x [<-|Hx]; auto.
  - intro H; injection H as <- <- <-. split; [reflexivity|]. split; [lia|]. intros x [].
Qed.

Lemma pick_none e q l : pick e q l = None -> forall d, In d l -> ml e q d = O.
Proof.
  induction l as [|d r IH]; cbn [pick]; [intros _ x []|].
  destruct (Nat.eqb_spec (ml e q d) 0) as [E|E]; [|discriminate].
  destruct (pick e q r) as [[[p' c'] s']|]; [discriminate|].
  intros _ x [<-|Hx]; auto.
Qed.

Definition ins_forest (e : Z) (q : list Z) (vals : list col) (cs : list node) : list node :=
  match q with
  | [] => cs
  | _ :: _ =>
      match pick e q cs with
      | Some (p, c, s) => let m := ml e q c in p ++ ins c m e (skipn m q) (skipn m vals) :: s
      | None => cs ++ [Node q e vals []]
      end
  end.

Lemma ins_eq k x v cs em e q vals :
  ins (Node k x v cs) em e q vals =
  match q with
  | [] => Node k x v cs
  | _ :: _ =>
      match pick e q cs with
      | None => if (0 <? em)%nat && (em <? length k)%nat
                then Node (firstn em k) x (firstn em v) [Node (skipn em k) x (skipn em v) cs; Node q e vals []]
                else Node k x v (ins_forest e q vals cs)
      | Some _ => Node k x v (ins_forest e q vals cs)
      end
  end.
Proof.
  destruct q as [|t q]; [reflexivity|].
  unfold ins_forest. cbn [ins].
  set (G := fix go (l : list node) : option (list node) := _).
  assert (HG : forall l, G l = match pick e (t :: q) l with
     | Some (p, c, s) => Some (p ++ ins c (ml e (t::q) c) e (skipn (ml e (t::q) c) (t :: q)) (skipn (ml e (t::q) c) vals) :: s)
     | None => None end).
  { induction l as [|c r IH]; [reflexivity|]. cbn [pick]. unfold G at 1. fold G.
    destruct (Nat.eqb_spec (ml e (t :: q) c) 0) as [E|E].
    - rewrite IH. destruct (pick e (t :: q) r) as [[[p d] s]|]; reflexivity.
    - reflexivity. }
  rewrite HG. destruct (pick e (t :: q) cs) as [[[p c] s]|]; reflexivity.
Qed.

Lemma search_path_eq n e q :
  search_path n e q =
  match q with
  | [] => []
  | _ :: _ => match pick e q (nkids n) with
              | None => []
              | Some (_, c, _) => (ml e q c, firstn (ml e q c) (nvals c)) :: search_path c e (skipn (ml e q c) q)
              end
  end.
Proof.
  destruct q as [|t q]; [destruct n; reflexivity|].
  destruct n as [k x v cs]. cbn [search_path nkids].
  induction cs as [|c r IH]; [reflexivity|].
  cbn [pick]. destruct (Nat.eqb_spec (ml e (t :: q) c) 0) as [E|E].
  - rewrite IH. destruct (pick e (t :: q) r) as [[[p d] s]|]; reflexivity.
  - reflexivity.
Qed.

(** ** Common prefixes *)
Lemma common_le a b : (common a b <= length a)%nat /\ (common a b <= length b)%nat.
Proof.
  revert b; induction a as [|x a IH]; intros [|y b]; cbn [common length]; try lia.
  destruct (Z.eqb_spec x y); cbn; [specialize (IH b)|]; lia.
Qed.
Lemma common_firstn a b : firstn (common a b) a = firstn (common a b) b.
Proof.
  revert b; induction a as [|x a IH]; intros [|y b]; cbn [common]; try reflexivity.
  destruct (Z.eqb_spec x y) as [->|]; cbn [firstn]; [now rewrite IH | reflexivity].
Qed.
Lemma common_split a b : 
  exists ra rb, a = firstn (common a b) b ++ ra /\ b = firstn (common a b) b ++ rb /\
    ra = skipn (common a b) a /\ rb = skipn (common a b) b /\
    (ra = [] \/ rb = [] \/ exists x ra' y rb', ra = x :: ra' /\ rb = y :: rb' /\ x <> y).
Proof.
  revert b; induction a as [|x a IH]; intros [|y b]; cbn [common].
  - exists [], []. repeat split; auto.
  - exists [], (y :: b). repeat split; auto.
  - exists (x :: a), []. repeat split; auto.
  - destruct (Z.eqb_spec x y) as [->|N]; cbn [firstn skipn app].
    + destruct (IH b) as (ra & rb & Ha & Hb & Hra & Hrb & Hd). exists ra, rb.
      split; [now f_equal|]. split; [now f_equal|]. auto.
    + exists (x :: a), (y :: b). split; [reflexivity|]. split; [reflexivity|]. split; [reflexivity|].
      split; [reflexivity|]. right; right. exists x, a, y, b. auto.
Qed.
Lemma common_app p a b : common (p ++ a) (p ++ b) = (length p + common a b)%nat.
Proof. induction p as [|x p IH]; cbn [app common length plus]; [reflexivity|]. rewrite Z.eqb_refl, IH. reflexivity. Qed.
Lemma common_pos a b : (0 < common a b)%nat <-> exists x a' b', a = x :: a' /\ b = x :: b'.
Proof.
  split.
  - destruct a as [|x a], b as [|y b]; cbn [common]; try lia.
    destruct (Z.eqb_spec x y) as [->|]; [|lia]. intros _. exists y, a, b; auto.
  - intros (x & a' & b' & -> & ->). cbn [common]. rewrite Z.eqb_refl. lia.
Qed.

(** ** Well-formed forests *)
Definition headkey (c : node) : Z * Z := (nextra c, hd 0 (ntoks c)).

Inductive wf : list node -> Prop :=
  Wf cs :
    (forall c, In c cs -> ntoks c <> [] /\ length (nvals c) = length (ntoks c) /\ wf (nkids c) /\
                          (forall d, In d (nkids c) -> nextra d = nextra c)) ->
    NoDup (map headkey cs) -> wf cs.

Lemma wf_in cs c : wf cs -> In c cs ->
  ntoks c <> [] /\ length (nvals c) = length (ntoks c) /\ wf (nkids c) /\ (forall d, In d (nkids c) -> nextra d = nextra c).
Proof. intros [l H _] Hi; auto. Qed.
Lemma wf_nodup cs : wf cs -> NoDup (map headkey cs).
Proof. now intros [l _ H]. Qed.
Lemma wf_nil : wf [].
Proof. constructor; [intros c [] | constructor]. Qed.

Lemma ml_pos e q c : ntoks c <> [] ->
  (0 < ml e q c)%nat <-> nextra c = e /\ exists r, q = hd 0 (ntoks c) :: r.
Proof.
  intro N. unfold matched_length. destruct (Z.eqb_spec e (nextra c)) as [->|E].
  - rewrite common_pos. split.
    + intros (x & a & b & -> & Hb). split; [reflexivity|]. rewrite Hb. cbn. eauto.
    + intros (_ & r & ->). destruct (ntoks c) as [|y k]; [easy|]. cbn. eauto.
  - split; [lia|]. intros (<- & _); easy.
Qed.

Lemma nodup_headkey_eq cs c d : wf cs -> In c cs -> In d cs -> headkey c = headkey d -> c = d.
Proof.
  intros W Hc Hd E. pose proof (wf_nodup _ W) as ND. clear W.
  induction cs as [|a l IH]; [easy|]. cbn [map] in ND. inversion ND as [|? ? Hn Hl]; subst.
  destruct Hc as [->|Hc], Hd as [->|Hd]; auto.
  - exfalso; apply Hn. rewrite E. now apply in_map.
  - exfalso; apply Hn. rewrite <- E. now apply in_map.
Qed.

(** At most one child can match: the iteration order of the children map does not matter. *)
Lemma one_child_matches cs e q c d : wf cs -> In c cs -> In d cs ->
  (0 < ml e q c)%nat -> (0 < ml e q d)%nat -> c = d.
Proof.
  intros W Hc Hd Mc Md.
  destruct (wf_in _ _ W Hc) as (Nc & _), (wf_in _ _ W Hd) as (Nd & _).
  apply ml_pos in Mc as (Ec & rc & Qc); [|exact Nc]. apply ml_pos in Md as (Ed & rd & Qd); [|exact Nd].
  apply (nodup_headkey_eq cs); auto. unfold headkey. f_equal; congruence.
Qed.

Lemma pick_found cs e q c : wf cs -> In c cs -> (0 < ml e q c)%nat ->
  exists p s, pick e q cs = Some (p, c, s).
Proof.
  intros W Hc M. destruct (pick e q cs) as [[[p d] s]|] eqn:E.
  - destruct (pick_some _ _ _ _ _ _ E) as (-> & Md & _).
    assert (d = c) as -> by (eapply one_child_matches; eauto; apply in_elt). eauto.
  - rewrite (pick_none _ _ _ E c Hc) in M; lia.
Qed.

(** ** Insertion preserves well-formedness (for every input) *)
Definition ins_child (e : Z) (q : list Z) (vals : list col) (c : node) : node :=
  ins c (ml e q c) e (skipn (ml e q c) q) (skipn (ml e q c) vals).

Lemma ins_head n em e q vals : ntoks n <> [] -> headkey (ins n em e q vals) = headkey n.
Proof.
  destruct n as [k x v cs]; cbn [ntoks]; intro N. rewrite ins_eq.
  destruct q as [|t q]; [reflexivity|].
  destruct (pick e (t :: q) cs); [reflexivity|].
  destruct (Nat.ltb_spec 0 em) as [H1|H1], (Nat.ltb_spec em (length k)) as [H2|H2]; cbn [andb]; try reflexivity.
  unfold headkey; cbn [nextra ntoks]. destruct k as [|y k]; [easy|]. destruct em; [lia|]. reflexivity.
Qed.

Lemma wf_replace p c c' s :
  wf (p ++ c :: s) -> headkey c' = headkey c ->
  (ntoks c' <> [] /\ length (nvals c') = length (ntoks c') /\ wf (nkids c') /\ (forall d, In d (nkids c') -> nextra d = nextra c')) ->
  wf (p ++ c' :: s).
Proof.
  intros W Hh H'. constructor.
  - intros d Hd. apply in_app_iff in Hd as [Hd|[<-|Hd]]; [|exact H'|].
    + apply (wf_in _ _ W), in_app_iff; auto.
    + apply (wf_in _ _ W), in_app_iff; right; right; auto.
  - pose proof (wf_nodup _ W) as ND. rewrite map_app in *. cbn [map] in *. now rewrite Hh.
Qed.

Lemma wf_snoc cs c : wf cs -> ~ In (headkey c) (map headkey cs) ->
  (ntoks c <> [] /\ length (nvals c) = length (ntoks c) /\ wf (nkids c) /\ (forall d, In d (nkids c) -> nextra d = nextra c)) ->
  wf (cs ++ [c]).
Proof.
  intros W Hn Hc. constructor.
  - intros d Hd. apply in_app_iff in Hd as [Hd|[<-|[]]]; [|exact Hc]. now apply (wf_in _ _ W).
  - rewrite map_app. cbn [map]. 
    apply (Permutation_NoDup (Permutation_app_comm [headkey c] (map headkey cs))). cbn [app].
    constructor; [exact Hn | now apply wf_nodup].
Qed.

Lemma no_match_head cs e t q : wf cs -> (forall d, In d cs -> ml e (t :: q) d = O) -> ~ In (e, t) (map headkey cs).
Proof.
  intros W H Hi. apply in_map_iff in Hi as (d & Hd & Hin).
  destruct (wf_in _ _ W Hin) as (N & _).
  assert (0 < ml e (t :: q) d)%nat as M.
  { apply ml_pos; [exact N|]. unfold headkey in Hd. injection Hd as -> <-. split; [reflexivity | now exists q]. }
  rewrite H in M by exact Hin. lia.
Qed.

Definition good_node c := ntoks c <> [] /\ length (nvals c) = length (ntoks c) /\ wf (nkids c) /\
  (forall d, In d (nkids c) -> nextra d = nextra c).

Lemma ins_forest_extra e q vals cs d : wf cs -> In d (ins_forest e q vals cs) -> 
  nextra d = e \/ In (nextra d) (map nextra cs).
Proof.
  intros W. unfold ins_forest. destruct q as [|t q]; [intro; right; now apply in_map|].
  destruct (pick e (t :: q) cs) as [[[p c] s]|] eqn:E.
  - destruct (pick_some _ _ _ _ _ _ E) as (-> & _). intro Hd. right.
    apply in_app_iff in Hd as [Hd|[<-|Hd]]; rewrite map_app; cbn [map]; apply in_app_iff.
    + left; now apply in_map.
    + right; left. destruct (wf_in _ _ W (in_elt c p s)) as (N & _).
      pose proof (ins_head c (ml e (t :: q) c) e (skipn (ml e (t :: q) c) (t :: q)) (skipn (ml e (t :: q) c) vals) N) as Hh.
      apply (f_equal fst) in Hh. symmetry. exact Hh.
    + right; right; now apply in_map.
  - intro Hd. apply in_app_iff in Hd as [Hd|[<-|[]]]; [right; now apply in_map | left; reflexivity].
Qed.

Lemma ins_forest_wf_node n : forall e q vals, wf (nkids n) -> length vals = length q ->
  wf (ins_forest e q vals (nkids n)).
Proof.
  induction n as [k x v cs IH] using node_ind'. intros e q vals W L. cbn [nkids] in *.
  unfold ins_forest. destruct q as [|t q]; [exact W|].
  destruct (pick e (t :: q) cs) as [[[p c] s]|] eqn:E.
  - destruct (pick_some _ _ _ _ _ _ E) as (-> & M & _). cbv zeta.
    destruct (wf_in _ _ W (in_elt c p s)) as (N & Lc & Wc & Xc).
    rewrite Forall_forall in IH. specialize (IH c (in_elt c p s)).
    set (m := ml e (t :: q) c) in *. set (q' := skipn m (t :: q)) in *. set (v' := skipn m vals) in *.
    apply (wf_replace p c _ s W); [now apply ins_head|].
    pose proof (proj1 (ml_pos e (t :: q) c N) M) as (Ee & _).
    assert (Hm : (m <= length (ntoks c))%nat /\ (m <= length (t :: q))%nat).
    { unfold m, matched_length. destruct (e =? nextra c); [|lia]. destruct (common_le (t :: q) (ntoks c)); lia. }
    assert (Lv : length v' = length q') by (unfold v', q'; rewrite !skipn_length; congruence).
    change (good_node (ins c m e q' v')). destruct c as [ck_ cx cv_ ccs]. cbn [nkids ntoks nvals nextra] in *. subst cx.
    rewrite ins_eq. destruct q' as [|t' q''] eqn:Eq'; [split; [|split; [|split]]; assumption|].
    assert (FW : wf (ins_forest e (t' :: q'') v' ccs)) by (apply IH; assumption).
    assert (FX : forall d, In d (ins_forest e (t' :: q'') v' ccs) -> nextra d = e).
    { intros d Hd. destruct (ins_forest_extra e _ _ _ d Wc Hd) as [->|Hi]; [reflexivity|].
      apply in_map_iff in Hi as (d' & Hd' & Hi'). rewrite <- Hd'. now apply Xc. }
    destruct (pick e (t' :: q'') ccs) as [pp|] eqn:E2.
    + split; [exact N|]. split; [exact Lc|]. split; [exact FW | exact FX].
    + destruct (Nat.ltb_spec 0 m) as [H1|H1]; [|lia].
      destruct (Nat.ltb_spec m (length ck_)) as [H2|H2]; cbn [andb].
      * (* split *)
        assert (NE : hd 0 (skipn m ck_) <> t').
        { destruct (common_split (t :: q) ck_) as (ra & rb & Ha & Hb & Hra & Hrb & Hd).
          assert (Cm : common (t :: q) ck_ = m).
          { unfold m, matched_length; cbn [nextra ntoks]. now rewrite Z.eqb_refl. }
          rewrite Cm in Hra, Hrb. unfold q' in Eq'. rewrite Eq' in Hra. subst ra.
          destruct Hd as [Hd|[Hd|(a & ra' & b & rb' & Hd1 & Hd2 & Hd3)]]; [discriminate| |].
          - exfalso. rewrite Hrb in Hd. apply (f_equal (@length Z)) in Hd. rewrite skipn_length in Hd. cbn in Hd. lia.
          - injection Hd1 as <- <-. rewrite <- Hrb, Hd2. cbn. congruence. }
        assert (Lfk : length (firstn m cv_) = length (firstn m ck_)) by (rewrite !firstn_length; lia).
        assert (Lsk : length (skipn m cv_) = length (skipn m ck_)) by (rewrite !skipn_length; lia).
        assert (Nsk : skipn m ck_ <> []).
        { intro Z0. apply (f_equal (@length Z)) in Z0. rewrite skipn_length in Z0. cbn in Z0. lia. }
        split; [|split; [|split]]; cbn [ntoks nvals nkids nextra].
        -- destruct ck_; [easy|]. destruct m; [lia|]. discriminate.
        -- exact Lfk.
        -- constructor.
           ++ intros d [<-|[<-|[]]]; cbn [ntoks nvals nkids nextra].
              ** split; [exact Nsk|]. split; [exact Lsk|]. split; [exact Wc | exact Xc].
              ** split; [discriminate|]. split; [exact Lv|]. split; [apply wf_nil|]. intros d [].
           ++ cbn [map headkey]. unfold headkey; cbn [nextra ntoks hd]. constructor; [|constructor; [intros []|constructor]].
              intros [H|[]]. injection H as H. now apply NE.
        -- intros d [<-|[<-|[]]]; reflexivity.
      * split; [exact N|]. split; [exact Lc|]. split; [exact FW | exact FX].
  - pose proof (pick_none _ _ _ E) as HN. apply wf_snoc; [exact W| |].
    + unfold headkey; cbn [nextra ntoks hd]. now apply no_match_head with (q := q).
    + cbn [ntoks nvals nkids nextra]. split; [discriminate|]. split; [exact L|]. split; [apply wf_nil|]. intros d [].
Qed.

Lemma ins_forest_wf e q vals cs : wf cs -> length vals = length q -> wf (ins_forest e q vals cs).
Proof. exact (ins_forest_wf_node (Node [] 0 [] cs) e q vals). Qed.
