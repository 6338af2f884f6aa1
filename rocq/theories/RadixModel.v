(** Model of mllm/engine/prefix_cache/RadixTree.{hpp,cpp}, Cache.cpp:16-28 and of the sliding-window eviction
    of mllm/nn/lmcache/PrefixCache.cpp:86-137.

    Simplifications:
    - a node is a value with a list of children; the list order stands for the iteration order of the
      [std::unordered_map] of RadixTree.hpp:184.  [RadixProofs.one_child_matches] shows that at most one child can
      match, so the order never matters;
    - [VectorView]s (RadixTree.hpp:25-130) are the lists they denote.  Views of one vector handed to different nodes
      are disjoint (they come from [subview] splits), so in-place writes to one node do not show in another;
    - the addresses of one token in all layers form one column, instead of one list per layer;
    - map keys are compared with their [extra_key] (the hash of RadixTree.hpp:157 includes it and equal hashes are
      required by the map; the bare operator== of RadixTree.cpp:14 ignores it);
    - [ref_count], [hit_count], [last_accessed] are never read and left out; the mutex-free single-threaded use. *)
From Verif Require Import Base.
Local Open Scope Z_scope.

(** The K and V addresses of one token, one entry per transformer block (RadixTree.hpp:167-170). *)
Record col := mkCol { ck : list Z; cv : list Z }.

(** RadixTree.hpp:179-196 (key = token_ids + extra_key, value, children). *)
Inductive node := Node (toks : list Z) (extra : Z) (vals : list col) (kids : list node).

Definition ntoks n := match n with Node t _ _ _ => t end.
Definition nextra n := match n with Node _ e _ _ => e end.
Definition nvals n := match n with Node _ _ v _ => v end.
Definition nkids n := match n with Node _ _ _ k => k end.

(** The loop of _matchedLength: RadixTree.cpp:243-247. *)
Fixpoint common (a b : list Z) : nat :=
  match a, b with
  | x :: a', y :: b' => if x =? y then S (common a' b') else O
  | _, _ => O
  end.

(** _matchedLength: RadixTree.cpp:241-248. *)
Definition matched_length (ea : Z) (a : list Z) (eb : Z) (b : list Z) : nat :=
  if ea =? eb then common a b else O.

(** Descent and leaf creation of insert (RadixTree.cpp:58-100) below node [n] of whose edge the first [em] tokens
    matched; [rest]/[vals] are the tokens/addresses not matched yet.  When nothing is left only the reference count
    changes (line 77). *)
Fixpoint ins (n : node) (em : nat) (e : Z) (rest : list Z) (vals : list col) {struct n} : node :=
  match rest with
  | [] => n
  | _ :: _ =>
      match n with
      | Node k x v cs =>
          let leaf := Node rest e vals [] in
          match
            (fix go (l : list node) : option (list node) :=
               match l with
               | [] => None
               | c :: r =>
                   let m := matched_length e rest (nextra c) (ntoks c) in
                   if (m =? 0)%nat
                   then match go r with Some r' => Some (c :: r') | None => None end
                   else Some (ins c m e (skipn m rest) (skipn m vals) :: r)
               end) cs
          with
          | Some cs' => Node k x v cs'
          | None =>
              (* _split, RadixTree.cpp:82-86 and 178-231 *)
              if (0 <? em)%nat && (em <? length k)%nat
              then Node (firstn em k) x (firstn em v) [Node (skipn em k) x (skipn em v) cs; leaf]
              else Node k x v (cs ++ [leaf])
          end
      end
  end.

(** The tree is its root node (RadixTree.cpp:29-33: sentinel token -1, no addresses). *)
Definition empty_tree : node := Node [-1] 0 [] [].

(** insert: RadixTree.cpp:44-103.  [None] = std::out_of_range from [subview] (address lists shorter than the
    tokens).  Longer address lists are cut by [subview(matched, size - matched)], lines 94-95. *)
Definition insert (t : node) (e : Z) (key : list Z) (vals : list col) : option node :=
  match key with
  | [] => Some t
  | _ :: _ => if (length vals <? length key)%nat then None
              else Some (ins t 0 e key (firstn (length key) vals))
  end.

(** search: RadixTree.cpp:105-165.  Returns the path below the root: per visited node how many tokens matched and the
    addresses of the matched tokens (line 150-151 reads the first [len] addresses). *)
Fixpoint search_path (n : node) (e : Z) (q : list Z) {struct n} : list (nat * list col) :=
  match q with
  | [] => []
  | _ :: _ =>
      (fix go (l : list node) : list (nat * list col) :=
         match l with
         | [] => []
         | c :: r =>
             let m := matched_length e q (nextra c) (ntoks c) in
             if (m =? 0)%nat then go r
             else (m, firstn m (nvals c)) :: search_path c e (skipn m q)
         end) (nkids n)
  end.

(** RadixSearchResult: RadixTree.hpp:214-220. *)
Record result := mkRes { r_success : bool; r_matched : nat; r_addrs : list col }.

Definition search (t : node) (e : Z) (q : list Z) : result :=
  let p := search_path t e q in
  let n := fold_right (fun x s => (fst x + s)%nat) O p in
  mkRes (0 <? n)%nat n (concat (map snd p)).

(** ** Sliding-window eviction: PrefixCache.cpp:86-137 *)

(** mllm/engine/prefix_cache/TLB.hpp: INVALID_VP_ADDR. *)
Definition invalid : Z := 2 ^ 32 - 1.

Definition set_invalid (l : nat) (c : col) : col :=
  mkCol (upd_nth l (fun _ => invalid) (ck c)) (upd_nth l (fun _ => invalid) (cv c)).

(** freeKey/freeValue: PrefixCache.cpp:129-137: INVALID is not passed on to the allocator. *)
Definition freed_of (a : Z) : list Z := if a =? invalid then [] else [a].

(** The inner loop lines 109-114 over the columns evicted in one node. *)
Definition evict_cols (l : nat) (k : nat) (v : list col) : list col * list Z * list Z :=
  (map (set_invalid l) (firstn k v) ++ skipn k v,
   flat_map (fun c => freed_of (nth l (ck c) invalid)) (firstn k v),
   flat_map (fun c => freed_of (nth l (cv c) invalid)) (firstn k v)).

(** The loop over the reversed path, lines 101-119, for layer [l] and window [w].  Returns the node, the addresses freed
    (keys, values; in order of release) and length_cnt after this node's children. *)
Fixpoint evict_node (n : node) (e : Z) (q : list Z) (w l : nat) {struct n}
  : node * list Z * list Z * nat :=
  match q with
  | [] => (n, [], [], O)
  | _ :: _ =>
      match n with
      | Node k x v cs =>
          let '(cs', fk, fv, cnt) :=
            (fix go (ls : list node) : list node * list Z * list Z * nat :=
               match ls with
               | [] => ([], [], [], O)
               | c :: r =>
                   let m := matched_length e q (nextra c) (ntoks c) in
                   if (m =? 0)%nat
                   then let '(r', fk, fv, cnt) := go r in (c :: r', fk, fv, cnt)
                   else
                     let '(c', fk, fv, cnt) := evict_node c e (skipn m q) w l in
                     if (w <? cnt + m)%nat
                     then
                       let k := Nat.min m (cnt + m - w) in
                       let '(v', fk', fv') := evict_cols l k (nvals c') in
                       (Node (ntoks c') (nextra c') v' (nkids c') :: r, fk ++ fk', fv ++ fv', (cnt + m)%nat)
                     else (c' :: r, fk, fv, (cnt + m)%nat)
               end) cs
          in (Node k x v cs', fk, fv, cnt)
      end
  end.

(** One layer of evictSlidingWindowLayerOn (lines 95-123), guard of line 99 included; [find] always uses extra_key 0
    (line 52-54). *)
Definition evict_layer (t : node) (q : list Z) (w l : nat) : node * list Z * list Z :=
  if (w <? r_matched (search t 0 q))%nat
  then let '(t', fk, fv, _) := evict_node t 0 q w l in (t', fk, fv)
  else (t, [], []).

(** All layers: [slide] says which layers use a sliding window; result lists the freed (layer, K addr, V addr) lists. *)
Fixpoint evict_layers (t : node) (q : list Z) (w : nat) (l : nat) (slide : list bool)
  : node * list (nat * list Z * list Z) :=
  match slide with
  | [] => (t, [])
  | b :: r =>
      let '(t1, f1) := if b then let '(t', fk, fv) := evict_layer t q w l in (t', [(l, fk, fv)]) else (t, []) in
      let '(t2, f2) := evict_layers t1 q w (S l) r in (t2, f1 ++ f2)
  end.

Definition evict (t : node) (q : list Z) (w : nat) (slide : list bool) : node * list (nat * list Z * list Z) :=
  if (length q <=? w)%nat then (t, []) else evict_layers t q w O slide.
