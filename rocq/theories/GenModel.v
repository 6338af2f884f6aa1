(** Text generation: /repo/mllm/models/ARGeneration.{hpp,cpp}.

    The model's forward pass is an arbitrary function of the state it is given (the map
    "past" together with the model's caches); random draws are arguments.  Numbers are an
    arbitrary type with a comparison and an addition.  Simplifications: temperature scaling
    and softmax are arbitrary functions from rows to rows of the same length; moving a
    tensor between devices does not change it; timing is left out. *)
From Verif Require Import Base DTypeModel ParamModel TensorModel.
Local Open Scope Z_scope.

(** ** Tensor::delete_, core/Tensor.cpp:38-41 *)
(** A tensor handle; [None] after impl_.reset().  Going through a null pointer is
    undefined. *)
Definition handle (A : Type) := option (tns A).
Definition through {A} (h : handle A) : res unit := match h with Some _ => ROk tt | None => RUB end.
(** impl_.reset(); for (auto& ... : impl_->attachedViews()) ... *)
Definition delete_ {A} (h : handle A) : res (handle A) :=
  let h' := None in do _ <- @through A h'; ROk h'.

(** ** getLastLogits, ARGeneration.cpp:469-485 *)
Definition last_logits {A} (t : tns A) : res (tns A) :=
  match x_shape t with
  | [_; s; _] => if s =? 1 then ROk t else slice t [slice_at kAll; slice_at (s - 1); slice_at kAll]
  | _ => RAbort
  end.
(** p[0], ..., p[n-1] for p = ptr<float>(); reading a cell never written is undefined. *)
Fixpoint read_n {A} (b : buf A) (o : Z) (n : nat) : res (list A) :=
  match n with
  | O => ROk []
  | S m => do x <- load b o; match x with None => RUB | Some a => do r <- read_n b (o + 1) m; ROk (a :: r) end
  end.
Definition read_row {A} (t : tns A) : res (list A) :=
  read_n (x_buf t) (x_offset t) (Z.to_nat (last (x_shape t) 0)).

Section Samplers.
Context {F : Type}.
Variable lt : F -> F -> bool.
Variable add : F -> F -> F.
Variable zero : F.

(** std::max_element: index of the largest so far, its value. *)
Fixpoint max_from (best : Z) (bv : F) (i : Z) (l : list F) : Z :=
  match l with
  | [] => best
  | x :: r => if lt bv x then max_from i x (i + 1) r else max_from best bv (i + 1) r
  end.
Definition max_element (l : list F) : Z := match l with [] => 0 | x :: r => max_from 0 x 1 r end.
(** sampleGreedy, lines 335-348. *)
Definition sample_greedy (logits : tns F) : res Z :=
  do t <- last_logits logits; do l <- read_row t; ROk (max_element l).

(** std::lower_bound (halving, as in libstdc++): first, len. *)
Fixpoint lower_bound (fuel : nat) (l : list F) (r : F) (first len : nat) : nat :=
  match fuel with
  | O => first
  | S f =>
    match len with
    | O => first
    | _ => let half := (len / 2)%nat in
           if lt (nth (first + half) l zero) r then lower_bound f l r (first + half + 1) (len - half - 1)
           else lower_bound f l r first half
    end
  end.
(** std::partial_sum. *)
Fixpoint sums_from (a : F) (l : list F) : list F :=
  match l with [] => [] | x :: r => let s := add a x in s :: sums_from s r end.
Definition partial_sums (l : list F) : list F := match l with [] => [] | x :: r => x :: sums_from x r end.
(** categoricalSample, lines 450-466, for the draw r. *)
Definition categorical (probs : list F) (r : F) : Z :=
  Z.of_nat (lower_bound (S (length probs)) (partial_sums probs) r 0 (length probs)).
(** sampleTopK, lines 379-399: [order] is the result of std::partial_sort on 0..V-1,
    [draw] the index chosen by sampleFromDistribution. *)
Definition top_k (probs : list F) (k : Z) (order : list nat) (draw : nat) : res Z :=
  if (k <? 0) || (zlen probs <? k) then RUB else ROk (Z.of_nat (nth draw order 0%nat)).
(** sampleTopP, lines 422-437: how many of the sorted probabilities are taken. *)
Fixpoint nucleus (c : F) (p : F) (l : list F) : nat :=
  match l with
  | [] => O
  | x :: r => if lt c p then S (nucleus (add c x) p r) else O
  end.
Definition top_p_count (probs : list F) (p : F) (order : list nat) : nat :=
  nucleus zero p (map (fun i => nth i probs zero) order).
Definition top_p (probs : list F) (p : F) (order : list nat) (draw : nat) : res Z :=
  if (length order <=? draw)%nat then RUB else ROk (Z.of_nat (nth draw order 0%nat)).

(** ** The three sampling functions: probabilities, then freeing the logits, then the draw *)
Variable scale softmax : list F -> list F.
Definition probs_of (logits : tns F) : res (list F) :=
  do t <- last_logits logits; do l <- read_row t; ROk (softmax (scale l)).
(** [del]: what delete_ does; the result includes the caller's handle of the logits. *)
Variable del : handle F -> res (handle F).
Definition freeing (logits : tns F) (pick : list F -> res Z) : res (Z * handle F) :=
  do p <- probs_of logits;
  do _ <- del (Some logits);   (* last_logits.delete_() *)
  do h <- del (Some logits);   (* logits.delete_() *)
  do t <- pick p; ROk (t, h).
End Samplers.

(** ** The sampling mode, lines 145, 161-171 *)
Inductive mode := MGreedy | MTopK | MTopP | MTemperature.
Definition sampling_mode (do_sample temp_is_1 top_p_positive : bool) (k : Z) : mode :=
  if do_sample || negb temp_is_1 || (0 <? k) || top_p_positive then
    if 0 <? k then MTopK else if top_p_positive then MTopP else MTemperature
  else MGreedy.

Section Loops.
Context {St L : Type}.
Variable forward : St -> St * L.       (* output (without the logits), logits *)
Variable feed : St -> Z -> St.         (* past = output; past["sequence"] = {{token}} *)
(** The sampler on the logits of step i.  [dead]: it freed the logits. *)
Variable sample : nat -> L -> res Z.
Variable dead : bool.
Variable eos : Z.

(** generate, lines 147-185: logits.device() after sampling. *)
Fixpoint gen_loop (fuel : nat) (i : nat) (s : St) : res (list Z) :=
  match fuel with
  | O => ROk []
  | S f =>
    let '(out, lg) := forward s in
    do t <- sample i lg;
    if t =? eos then ROk [t]
    else do _ <- (if dead then RUB else ROk tt);
         do r <- gen_loop f (S i) (feed out t); ROk (t :: r)
  end.
Definition generate (max_length : Z) (s : St) : res (list Z) := gen_loop (Z.to_nat max_length) 0 s.
(** streamGenerate, lines 221-267: the tokens given to the callback. *)
Fixpoint stream_loop (fuel : nat) (i : nat) (s : St) : res (list Z) :=
  match fuel with
  | O => ROk []
  | S f =>
    let '(out, lg) := forward s in
    do t <- sample i lg;
    if t =? eos then ROk [t] else do r <- stream_loop f (S i) (feed out t); ROk (t :: r)
  end.
Definition stream (max_length : Z) (s : St) : res (list Z) := stream_loop (Z.to_nat max_length) 0 s.
(** ARGenerationChatIterator, lines 27-120. *)
Record iter := mkIter { i_in : St; i_step : Z; i_token : Z; i_finished : bool; i_count : nat }.
Definition it_step (max_length : Z) (x : iter) : res iter :=
  if i_finished x then ROk x
  else if max_length <=? Z.of_nat (i_count x) then ROk (mkIter (i_in x) (i_step x) (i_token x) true (i_count x))
  else
    let '(out, lg) := forward (i_in x) in
    do t <- sample (i_count x) lg;
    ROk (mkIter (feed out t) (Z.of_nat (i_count x)) t (t =? eos) (S (i_count x))).
Definition it_begin (max_length : Z) (s : St) : res iter := it_step max_length (mkIter s (-1) 0 false 0).
(** for (auto& step : chat(input)) ...: the (step, token) pairs seen by the loop body.
    The loop ends: one more call of step() than tokens. *)
Fixpoint chat_loop (fuel : nat) (max_length : Z) (x : iter) : res (list (Z * Z)) :=
  if i_finished x then ROk []
  else match fuel with
       | O => RDiverge
       | S f => do y <- it_step max_length x; do r <- chat_loop f max_length y; ROk ((i_step x, i_token x) :: r)
       end.
Definition chat (max_length : Z) (s : St) : res (list (Z * Z)) :=
  do x <- it_begin max_length s; chat_loop (S (Z.to_nat max_length)) max_length x.
End Loops.
