(** C90-C93: chat sessions over the prefix cache. *)
From Verif Require Import Base DTypeModel ParamModel TensorModel RadixModel RadixSpec RadixProofs RadixHist ZenModel ZenProofs SessModel SessSpec SessAlloc SessProofs SessRun.
Local Open Scope Z_scope.

(** C90. Replies do not depend on what is cached: for every network, every geometry and every sequence of servable
    requests, a new session answers every one of them, with the reply generation without a cache would give.  Partial:
    the conditions in [servable] are needed (see the refutations below). *)
Theorem C90_cache_is_invisible_partial :
  forall (H G : Type) L (embed : Z -> H) kproj vproj mix (logits : H -> G) tok basep order eos think p l mem rs,
  0 <= p -> 0 <= l -> 6 <= p + l ->
  walks_all order -> apart basep (2 ^ (p + l) * Z.of_nat tok) ->
  (forall j x q, length (kproj j x q) = tok) -> (forall j x q, length (vproj j x q) = tok) ->
  servable L embed kproj vproj mix logits eos think rs ->
  lanes_needed L rs + 2 * 2 ^ (p + l) <= 2 ^ 32 ->
  forall c, fresh p l mem = Some c ->
  exists c', serve L embed kproj vproj mix logits tok basep order eos eos think c rs
    = ROk (c', map (reply L embed kproj vproj mix logits eos) rs).
Proof.
  intros H G L embed kproj vproj mix logits tok basep order eos think p l mem rs Hp Hl H6 HO HA HK HV HS HN c HF.
  pose proof (fresh_ok L embed kproj vproj mix logits p l tok basep think HK HV mem c HF H6) as HI.
  destruct (serve_ok L embed kproj vproj mix logits p l tok basep order eos think Hp Hl HO HA HK HV rs [] c [] [] HI eq_refl HS)
    as (c' & held' & h' & E & _); [cbn [length]; lia|]. eauto.
Qed.

Section Toy.
(** A network of one layer whose answer depends on every token, its position and its predecessors. *)
Definition t_embed (t : Z) : Z := t.
Definition t_k (_ : nat) (x q : Z) : list Z := [x; q].
Definition t_v (_ : nat) (x q : Z) : list Z := [x + q; x * x].
Definition t_mix (_ : nat) (x q : Z) (ks vs : list (list Z)) : Z :=
  fold_left (fun a kv => a * 3 + nth 0 (fst kv) 0 * 5 + nth 1 (fst kv) 0 * 7 + nth 0 (snd kv) 0 + nth 1 (snd kv) 0)
            (combine ks vs) (x + 11 * q).
Definition t_logits (x : Z) : Z := 10 + x mod 1000.
Definition t_base (b : Z) : Z := 1000 * b.
Definition t_order (_ : nat) (z : zenfs) : list Z := map bl_id (z_blobs z).
Definition t_serve eos eot think c rs := serve 1 t_embed t_k t_v t_mix t_logits 2 t_base t_order eos eot think c rs.
Definition t_reply eos rq := reply 1 t_embed t_k t_v t_mix t_logits eos rq.
Definition t_run eos eot think (rs : list (request Z)) : res (cache * list (list chunk)) :=
  match fresh 5 1 (fun _ => 0) with Some c => t_serve eos eot think c rs | None => RAbort end.
(** The most likely token; a thinking token first, then the end. *)
Definition greedy (_ : nat) (g : Z) : Z := g.
Definition thinks (i : nat) (_ : Z) : Z := match i with O => 9 | _ => 0 end.
End Toy.

Definition replies (r : res (cache * list (list chunk))) : option (list (list chunk)) :=
  match r with ROk (_, o) => Some o | _ => None end.

(** Asking again what is completely cached reads before an empty tensor: the prompt of an earlier request (whose answer
    began with the thinking token) sent once more. *)
Theorem C90_cached_prompt_refuted : exists rq, 1 <= rq_max rq /\ (2 <= length (rq_ids rq))%nat /\
  (exists c' o, t_run 0 0 9 [rq] = ROk (c', o)) /\ t_run 0 0 9 [rq; rq] = RUB.
Proof.
  exists (mkRq [1; 2; 3] 5 thinks). split; [cbn; lia|]. split; [cbn; lia|]. split; [|vm_compute; reflexivity].
  destruct (t_run 0 0 9 [mkRq [1; 2; 3] 5 thinks]) as [[c' o]| | |] eqn:E; [eauto| | |]; exfalso; vm_compute in E; discriminate.
Qed.

(** With exactly one token not cached, that token is processed one position too far, and the reply is another one. *)
Theorem C90_one_new_token_refuted : exists r1 r2 o1 o2, 1 <= rq_max r1 /\ 1 <= rq_max r2 /\
  rq_ids r2 = rq_ids r1 ++ [4] /\
  replies (t_run 0 0 9 [r1; r2]) = Some [o1; o2] /\ o1 = t_reply 0 r1 /\ o2 <> t_reply 0 r2.
Proof.
  exists (mkRq [1; 2; 3] 5 thinks), (mkRq [1; 2; 3; 4] 3 greedy). eexists. eexists.
  split; [cbn; lia|]. split; [cbn; lia|]. split; [reflexivity|]. split; [vm_compute; reflexivity|].
  split; [vm_compute; reflexivity|]. vm_compute. discriminate.
Qed.
(** So is a prompt of one token, even in a new session. *)
Theorem C90_one_token_prompt_refuted : exists rq o, 1 <= rq_max rq /\ length (rq_ids rq) = 1%nat /\
  replies (t_run 0 0 9 [rq]) = Some [o] /\ o <> t_reply 0 rq.
Proof.
  exists (mkRq [5] 3 greedy). eexists. split; [cbn; lia|]. split; [reflexivity|]. split; [vm_compute; reflexivity|].
  vm_compute. discriminate.
Qed.

(** A prompt that leaves a cached one at a token which comes back later in it (C05) is answered from that other
    conversation, although more than one of its tokens is new. *)
Theorem C90_other_conversation_refuted : exists r1 r2 r3 o1 o2 o3,
  1 <= rq_max r1 /\ 1 <= rq_max r2 /\ 1 <= rq_max r3 /\
  (forall s, In s [rq_ids r1; rq_ids r2] -> ~ prefix (removelast (rq_ids r3)) s) /\
  replies (t_run 0 0 9 [r1; r2; r3]) = Some [o1; o2; o3] /\
  o1 = t_reply 0 r1 /\ o2 = t_reply 0 r2 /\ o3 <> t_reply 0 r3.
Proof.
  exists (mkRq [1; 2; 3; 4] 5 thinks), (mkRq [1; 2; 3; 4; 6; 5] 5 thinks), (mkRq [1; 2; 6; 7; 8] 3 greedy).
  eexists. eexists. eexists. split; [cbn; lia|]. split; [cbn; lia|]. split; [cbn; lia|]. split.
  { cbn. intros s [<-|[<-|[]]] (r & E); discriminate E. }
  split; [vm_compute; reflexivity|]. split; [vm_compute; reflexivity|]. split; [vm_compute; reflexivity|].
  vm_compute. discriminate.
Qed.

(** A request for no tokens caches its prompt without computing it, and spoils the next one. *)
Theorem C90_no_tokens_refuted : exists r1 r2 o1 o2, rq_max r1 = 0 /\ 1 <= rq_max r2 /\
  rq_ids r2 = rq_ids r1 ++ [4; 5] /\
  replies (t_run 0 0 9 [r1; r2]) = Some [o1; o2] /\ o2 <> t_reply 0 r2.
Proof.
  exists (mkRq [1; 2; 3] 0 thinks), (mkRq [1; 2; 3; 4; 5] 3 greedy). eexists. eexists.
  split; [reflexivity|]. split; [cbn; lia|]. split; [reflexivity|]. split; [vm_compute; reflexivity|].
  vm_compute. discriminate.
Qed.

(** C91. What the cache returns for a query holds the K and V bytes of that query's tokens, at the longest known prefix.
    Partial: as C90, and the query parts cleanly from the cached sequences. *)
Theorem C91_cached_bytes_partial :
  forall (H G : Type) L (embed : Z -> H) kproj vproj mix (logits : H -> G) tok basep order eos think p l mem rs,
  0 <= p -> 0 <= l -> 6 <= p + l ->
  walks_all order -> apart basep (2 ^ (p + l) * Z.of_nat tok) ->
  (forall j x q, length (kproj j x q) = tok) -> (forall j x q, length (vproj j x q) = tok) ->
  servable L embed kproj vproj mix logits eos think rs ->
  lanes_needed L rs + 2 * 2 ^ (p + l) <= 2 ^ 32 ->
  forall c c' os, fresh p l mem = Some c ->
  serve L embed kproj vproj mix logits tok basep order eos eos think c rs = ROk (c', os) ->
  forall q, (forall s, In s (map (kept L embed kproj vproj mix logits eos think) rs) -> parts_cleanly q s) ->
  longest_known (map (kept L embed kproj vproj mix logits eos think) rs) q (r_matched (RadixModel.search (c_tree c') 0 q)) /\
  forall i j a, nth_error (r_addrs (RadixModel.search (c_tree c') 0 q)) i = Some a -> (j < L)%nat ->
  exists kp vp, pca_physical (c_alloc c') (nth j (ck a) 0) = Some kp /\ pca_physical (c_alloc c') (nth j (cv a) 0) = Some vp /\
    read_bytes (c_mem c') kp tok = key_of embed kproj vproj mix j q i /\
    read_bytes (c_mem c') vp tok = value_of embed kproj vproj mix j q i.
Proof.
  intros H G L embed kproj vproj mix logits tok basep order eos think p l mem rs Hp Hl H6 HO HA HK HV HS HN c c' os HF HR q CQ.
  pose proof (fresh_ok L embed kproj vproj mix logits p l tok basep think HK HV mem c HF H6) as HI.
  destruct (serve_ok L embed kproj vproj mix logits p l tok basep order eos think Hp Hl HO HA HK HV rs [] c [] [] HI eq_refl HS)
    as (c2 & held & h & E & I & Eh & _); [cbn [length]; lia|]. cbn [app] in Eh.
  rewrite HR in E. injection E as <- _.
  assert (CQ' : clean_query h 0 q) by (intros x Hx _; apply CQ; rewrite <- Eh; apply in_map, Hx).
  split; [|intros i j a Ea Hj].
  - pose proof I as (_ & HT & CH & HE). split; [apply (search_sizes_all h _ 0 q HT)|]. split.
    + destruct (Nat.eq_dec (r_matched (RadixModel.search (c_tree c') 0 q)) 0) as [Z0|NZ]; [left; exact Z0|right].
      destruct (search_genuine h (c_tree c') 0 q HT CH CQ') as (x & Hx & _ & Px); [lia|].
      exists (e_toks x). split; [rewrite <- Eh; apply in_map, Hx|exact Px].
    + intros s u Hs Pu Ps. rewrite <- Eh in Hs. apply in_map_iff in Hs as (x & <- & Hx).
      apply (search_longest h (c_tree c') 0 q u HT CH CQ' Pu). exists x. split; [exact Hx|]. split; [apply HE, Hx|exact Ps].
  - destruct (found_ok L embed kproj vproj mix p l tok basep order c' held h q I CQ' i a Ea j Hj) as (A & B & C & D).
    pose proof I as ((_ & _ & _ & _ & TL & _) & _).
    assert (X : forall z, In z held -> pca_physical (c_alloc c') z = Some (pa p l tok basep z)).
    { intros z Hz. unfold pca_physical. rewrite TL.
      assert (Ez : existsb (Z.eqb z) held = true) by (apply existsb_exists; exists z; split; [exact Hz|apply Z.eqb_refl]).
      rewrite Ez. reflexivity. }
    exists (pa p l tok basep (nth j (ck a) 0)), (pa p l tok basep (nth j (cv a) 0)). auto.
Qed.

(** After a query that leaves a cached sequence at a token coming back later in it: bytes of another position. *)
Theorem C91_other_bytes_refuted : exists r1 r2 q c' os i a kp,
  1 <= rq_max r1 /\ 1 <= rq_max r2 /\ t_run 0 0 9 [r1; r2] = ROk (c', os) /\
  nth_error (r_addrs (RadixModel.search (c_tree c') 0 q)) i = Some a /\
  pca_physical (c_alloc c') (nth 0 (ck a) 0) = Some kp /\
  read_bytes (c_mem c') kp 2 <> key_of t_embed t_k t_v t_mix 0 q i.
Proof.
  exists (mkRq [1; 2; 3; 4] 5 thinks), (mkRq [1; 2; 3; 4; 6; 5] 5 thinks), [1; 2; 6; 7; 8].
  destruct (t_run 0 0 9 [mkRq [1; 2; 3; 4] 5 thinks; mkRq [1; 2; 3; 4; 6; 5] 5 thinks]) as [[c' os]| | |] eqn:E;
    [|exfalso; vm_compute in E; discriminate..].
  exists c', os, 2%nat. vm_compute in E. injection E as <- _.
  eexists. eexists. split; [cbn; lia|]. split; [cbn; lia|]. split; [reflexivity|].
  split; [vm_compute; reflexivity|]. split; [vm_compute; reflexivity|]. vm_compute. discriminate.
Qed.

(** C92. The stream of one reply: for every cache state (clean or not), when the two end tokens of the configuration agree
    and max_length is at least 1: texts, then exactly one "finished" message, which comes last and is empty; fewer than
    max_length texts, none of them the end token. *)
Theorem C92_stream_protocol_partial :
  forall (H G : Type) L (embed : Z -> H) kproj vproj mix (logits : H -> G) tok basep order eos think c rq c' chs,
  1 <= rq_max rq ->
  respond L embed kproj vproj mix logits tok basep order eos eos think c rq = ROk (c', chs) ->
  exists ts, chs = map (fun t => (Some t, false)) ts ++ [(None, true)] /\ Z.of_nat (length ts) < rq_max rq /\ ~ In eos ts.
Proof.
  intros H G L embed kproj vproj mix logits tok basep order eos think c rq c' chs Hm E.
  exact (respond_protocol L embed kproj vproj mix logits tok basep order eos think c rq c' chs Hm E).
Qed.
(** The configuration has two end tokens: the one read from the file (eos_token_id) ends the message for the client, the
    built-in one (end_of_text_token_id) ends generation.  When they differ, texts follow the "finished" message, or no
    "finished" message comes at all. *)
Theorem C92_two_end_tokens_refuted : exists eos eot r1 r2,
  1 <= rq_max r1 /\ 1 <= rq_max r2 /\
  replies (t_run eos eot 9 [r1]) = Some [[(None, true); (Some 4, false); (Some eot, false)]] /\
  replies (t_run eos eot 9 [r2]) = Some [[(Some eot, false)]].
Proof.
  exists 0, 8, (mkRq [1; 2; 3] 5 (fun i _ => nth i [0; 4; 8] 0)), (mkRq [1; 2; 3] 5 (fun _ _ => 8)).
  split; [cbn; lia|]. split; [cbn; lia|]. split; vm_compute; reflexivity.
Qed.
(** max_length below 1: the client is never told that the reply is over. *)
Theorem C92_no_tokens_refuted : exists rq, rq_max rq = 0 /\ replies (t_run 0 0 9 [rq]) = Some [[]].
Proof. exists (mkRq [1; 2; 3] 0 thinks). split; [reflexivity|vm_compute; reflexivity]. Qed.

(** C93. Lanes: a request maps two lanes per layer for every prompt token that was not cached and every token generated
    before the last, and unmaps none. *)
Theorem C93_lane_count_partial :
  forall (H G : Type) L (embed : Z -> H) kproj vproj mix (logits : H -> G) tok basep order eos think p l mem rs rq,
  0 <= p -> 0 <= l -> 6 <= p + l ->
  walks_all order -> apart basep (2 ^ (p + l) * Z.of_nat tok) ->
  (forall j x q, length (kproj j x q) = tok) -> (forall j x q, length (vproj j x q) = tok) ->
  servable L embed kproj vproj mix logits eos think (rs ++ [rq]) ->
  lanes_needed L (rs ++ [rq]) + 2 * 2 ^ (p + l) <= 2 ^ 32 ->
  forall c c1 os, fresh p l mem = Some c ->
  serve L embed kproj vproj mix logits tok basep order eos eos think c rs = ROk (c1, os) ->
  exists c2 o n m, respond L embed kproj vproj mix logits tok basep order eos eos think c1 rq = ROk (c2, o) /\
    longest_known (map (kept L embed kproj vproj mix logits eos think) rs) (rq_ids rq) m /\
    lanes_mapped c1 n /\
    lanes_mapped c2 (n + 2 * L * (length (rq_ids rq) + length (removelast (answer L embed kproj vproj mix logits eos rq)) - m)).
Proof.
  intros H G L embed kproj vproj mix logits tok basep order eos think p l mem rs rq Hp Hl H6 HO HA HK HV HS HN c c1 os HF HR.
  pose proof (fresh_ok L embed kproj vproj mix logits p l tok basep think HK HV mem c HF H6) as HI.
  assert (HSr : servable L embed kproj vproj mix logits eos think ([] ++ rs)).
  { intros b r a E. apply (HS b r (a ++ [rq])). cbn [app] in E. rewrite E, <- app_assoc. reflexivity. }
  assert (LS : lanes_needed L (rs ++ [rq]) = lanes_needed L rs + 2 * Z.of_nat L * (Z.of_nat (length (rq_ids rq)) + rq_max rq)).
  { clear. unfold lanes_needed. induction rs as [|r rs IH]; cbn [app fold_right]; [lia|]. rewrite IH. lia. }
  destruct (HS rs rq [] eq_refl) as (M1 & M2 & M3).
  assert (M0 : 0 <= Z.of_nat L * (Z.of_nat (length (rq_ids rq)) + rq_max rq)) by (apply Z.mul_nonneg_nonneg; lia).
  destruct (serve_ok L embed kproj vproj mix logits p l tok basep order eos think Hp Hl HO HA HK HV rs [] c [] [] HI eq_refl HSr)
    as (c2 & held & h & E & I & Eh & Hl1); [cbn [length]; lia|]. cbn [app] in Eh. cbn [length] in Hl1.
  rewrite HR in E. injection E as <- _.
  destruct (respond_ok L embed kproj vproj mix logits p l tok basep order eos think Hp Hl HO HA HK HV c1 held h rq I M1 M2)
    as (c3 & held3 & cols & E3 & I3 & L3).
  { intros x Hx. apply M3. rewrite <- Eh. apply in_map, Hx. }
  { lia. }
  assert (MAP : forall c held h, sinv L embed kproj vproj mix p l tok basep c held h -> lanes_mapped c (length held)).
  { intros c0 held0 h0 ((ZI & _ & _ & _ & TL & _) & _). exists held0. destruct ZI as (_ & ND & _).
    split; [exact ND|]. split; [reflexivity|]. intro a. unfold pca_physical. rewrite TL.
    destruct (existsb (Z.eqb a) held0) eqn:Ex.
    - apply existsb_exists in Ex as (y & Hy & Ey). apply Z.eqb_eq in Ey as <-. split; [discriminate|auto].
    - split; [|congruence]. intros Ha. exfalso. assert (X : existsb (Z.eqb a) held0 = true); [|congruence].
      apply existsb_exists. exists a. split; [exact Ha|apply Z.eqb_refl]. }
  exists c3, (reply L embed kproj vproj mix logits eos rq), (length held), (r_matched (RadixModel.search (c_tree c1) 0 (rq_ids rq))).
  split; [exact E3|]. split; [|split; [exact (MAP _ _ _ I)|]].
  - assert (CQ : clean_query h 0 (rq_ids rq)).
    { intros x Hx _. assert (Hk : In (e_toks x) (map (kept L embed kproj vproj mix logits eos think) rs)) by (rewrite <- Eh; apply in_map, Hx). apply (M3 _ Hk). }
    pose proof I as (_ & HT & CH & HE). split; [apply (search_sizes_all h _ 0 _ HT)|]. split.
    + destruct (Nat.eq_dec (r_matched (RadixModel.search (c_tree c1) 0 (rq_ids rq))) 0) as [Z0|NZ]; [left; exact Z0|right].
      destruct (search_genuine h (c_tree c1) 0 (rq_ids rq) HT CH CQ) as (x & Hx & _ & Px); [lia|].
      exists (e_toks x). split; [rewrite <- Eh; apply in_map, Hx|exact Px].
    + intros s u Hs Pu Ps. rewrite <- Eh in Hs. apply in_map_iff in Hs as (x & <- & Hx).
      apply (search_longest h (c_tree c1) 0 (rq_ids rq) u HT CH CQ Pu). exists x. split; [exact Hx|]. split; [apply HE, Hx|exact Ps].
  - rewrite <- Nat.mul_assoc, <- L3. exact (MAP _ _ _ I3).
Qed.
(** Lanes of thinking tokens stay mapped although no cached sequence refers to them: after one request, two of six. *)
Theorem C93_leak_refuted : exists rq c' os a, t_run 0 0 9 [rq] = ROk (c', os) /\
  pca_physical (c_alloc c') a <> None /\ ~ referred (c_tree c') a.
Proof.
  exists (mkRq [1; 2] 5 thinks).
  destruct (t_run 0 0 9 [mkRq [1; 2] 5 thinks]) as [[c' os]| | |] eqn:E; [|exfalso; vm_compute in E; discriminate..].
  exists c', os, 5. split; [reflexivity|]. vm_compute in E. injection E as <- _.
  split; [vm_compute; discriminate|]. intros (n & W & cc & Hc & Ha). cbn [c_tree] in W.
  set (t := Node [-1] 0 [] [Node [1; 2] 0 [mkCol [0] [1]; mkCol [2] [3]] []]) in W.
  assert (X : n = t \/ n = Node [1; 2] 0 [mkCol [0] [1]; mkCol [2] [3]] []).
  { clear Hc Ha. induction W as [|n d W IH Hd]; [left; reflexivity|]. destruct IH as [->| ->]; cbn in Hd.
    - destruct Hd as [<-|[]]. right. reflexivity.
    - destruct Hd. }
  destruct X as [->| ->]; cbn in Hc; [destruct Hc|].
  destruct Hc as [<-|[<-|[]]]; cbn in Ha; lia.
Qed.

(** The hypotheses are met: two requests of the toy network, the second reusing the first four tokens of the first. *)
Definition h_rs : list (request Z) := [mkRq [1; 2; 3; 4] 5 thinks; mkRq [1; 2; 3; 4; 5; 6] 3 greedy].
Lemma C90_hypotheses :
  0 <= 5 /\ 0 <= 1 /\ 6 <= 5 + 1 /\ walks_all t_order /\ apart t_base (2 ^ (5 + 1) * Z.of_nat 2) /\
  (forall j x q, length (t_k j x q) = 2%nat) /\ (forall j x q, length (t_v j x q) = 2%nat) /\
  servable 1 t_embed t_k t_v t_mix t_logits 0 9 h_rs /\ lanes_needed 1 h_rs + 2 * 2 ^ (5 + 1) <= 2 ^ 32 /\
  exists c, fresh 5 1 (fun _ => 0) = Some c.
Proof.
  split; [lia|]. split; [lia|]. split; [lia|]. split; [intros n z; reflexivity|].
  split; [intros b d Hb Hd N; unfold t_base; change (2 ^ (5 + 1) * Z.of_nat 2) with 128; lia|].
  split; [reflexivity|]. split; [reflexivity|]. split; [|split; [vm_compute; discriminate|eexists; reflexivity]].
  intros before rq after E. destruct before as [|r1 [|r2 before]].
  - injection E as <- _. split; [cbn; lia|]. split; [cbn; lia|]. intros s [].
  - injection E as <- <- _. split; [cbn; lia|]. split; [cbn; lia|]. intros s [<-|[]].
    assert (E1 : kept 1 t_embed t_k t_v t_mix t_logits 0 9 (mkRq [1; 2; 3; 4] 5 thinks) = [1; 2; 3; 4]) by (vm_compute; reflexivity).
    rewrite E1.
    assert (E2 : exists w, kept 1 t_embed t_k t_v t_mix t_logits 0 9 (mkRq [1; 2; 3; 4; 5; 6] 3 greedy) = [1; 2; 3; 4] ++ w).
    { eexists. vm_compute. reflexivity. }
    destruct E2 as (w & ->).
    assert (PC : forall w, parts_cleanly ([1; 2; 3; 4] ++ w) [1; 2; 3; 4]).
    { intros w0 p x ra y rb A B N. cbn in A, B. destruct p as [|a [|b [|c [|d p]]]]; cbn in A, B;
        try (injection A; injection B; intros; subst; congruence). destruct p; discriminate B. }
    split; [intros (r & A); discriminate A|]. split; [exact (PC [5; 6])|exact (PC w)].
  - exfalso. destruct before; discriminate E.
Qed.
Example C90_example : exists c', t_run 0 0 9 h_rs = ROk (c', map (t_reply 0) h_rs).
Proof.
  destruct C90_hypotheses as (A & B & C & D & E & F & J & K & M & (c & N)).
  destruct (C90_cache_is_invisible_partial Z Z 1 t_embed t_k t_v t_mix t_logits 2 t_base t_order 0 9 5 1 (fun _ => 0) h_rs A B C D E F J K M c N) as (c' & R).
  exists c'. unfold t_run. rewrite N. exact R.
Qed.
Print Assumptions C90_cache_is_invisible_partial.
Print Assumptions C90_cached_prompt_refuted.
Print Assumptions C90_one_new_token_refuted.
Print Assumptions C90_one_token_prompt_refuted.
Print Assumptions C90_other_conversation_refuted.
Print Assumptions C90_no_tokens_refuted.
Print Assumptions C91_cached_bytes_partial.
Print Assumptions C91_other_bytes_refuted.
Print Assumptions C92_stream_protocol_partial.
Print Assumptions C92_two_end_tokens_refuted.
Print Assumptions C92_no_tokens_refuted.
Print Assumptions C93_lane_count_partial.
Print Assumptions C93_leak_refuted.
