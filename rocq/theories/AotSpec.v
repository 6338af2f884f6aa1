(** What the runner should answer: greedy generation over the whole sequence, without chunks, masks or caches
    ([SessSpec.hidden]: a token's hidden state depends on the tokens up to it). *)
From Verif Require Import Base DTypeModel GenModel SessModel SessSpec AotModel.
Local Open Scope nat_scope.

Section Reference.
Context {X : Type}.
Variable g : config.
Variable embed : Z -> X.
Variable kproj vproj : nat -> X -> Z -> list Z.
Variable mix : nat -> X -> Z -> list (list Z) -> list (list Z) -> X.
Variable logits : X -> list Z.
Variable is_eos : Z -> bool.

(** The most likely token after [ts]. *)
Definition best (ts : list Z) : Z := max_element Z.ltb (next (c_L g) embed kproj vproj mix logits ts).
(** At most [n] tokens after [ts], up to an end token. *)
Fixpoint continue_ (n : nat) (ts : list Z) : list Z :=
  match n with
  | O => []
  | S m => let t := best ts in if is_eos t then [t] else t :: continue_ m (ts ++ [t])
  end.
(** The first token after the prompt, and [seq_len] more while there is room in the context. *)
Definition expected (prompt : list Z) (seq_len : nat) : list Z :=
  best prompt :: continue_ (Nat.min seq_len (c_C g - length prompt)) (prompt ++ [best prompt]).

(** States of a runner: fresh, or after any successful calls (whatever the mask and logits tensors held). *)
Inductive reached : manager -> Prop :=
| re_init : reached (init_cache g)
| re_run m pm po tm toks n m' ts : reached m -> length pm = c_A g * c_C g -> length tm = c_C g ->
    run g embed kproj vproj mix logits is_eos pm po tm toks n m = ROk (m', ts) -> reached m'.
End Reference.

(** Sensible geometry: something in the context, 1 <= ar_len <= context_len. *)
Definition geometry (g : config) : Prop := 2 <= c_C g /\ 1 <= c_A g <= c_C g.
(** The call fits: the prompt fits into the cache while prompts are processed, and no token is stored behind the last
    place of the cache while decoding. *)
Definition fits (g : config) (prompt seq_len : nat) : Prop :=
  1 <= prompt /\ ((c_A g = c_C g /\ prompt <= c_C g) \/ (c_A g < c_C g /\ prompt <= c_C g - c_A g /\ prompt + seq_len <= c_C g - 1)).

(** Column [c] of row [s] of a mask. *)
Definition shows (g : config) (mask : list Z) (s c : nat) : Prop := nth (s * c_C g + c) mask 0%Z <> 0%Z.

(** Row length of the cache when it is arranged for [a] tokens; K and V of token [t]: K is laid out [H * D, width], V is
    laid out [H, width, D]. *)
Definition width (g : config) (a : nat) : nat := if a =? c_C g then c_C g else c_C g - a.
Definition key_entry (g : config) (a : nat) (b : list Z) (e t : nat) : Z := nth (e * width g a + t) b 0%Z.
Definition value_entry (g : config) (a : nat) (b : list Z) (h t d : nat) : Z := nth ((h * width g a + t) * c_D g + d) b 0%Z.
(** The same for the outputs of a graph over [a] tokens. *)
Definition key_result (a : nat) (o : list Z) (e s : nat) : Z := nth (e * a + s) o 0%Z.
Definition value_result (g : config) (a : nat) (o : list Z) (h s d : nat) : Z := nth ((h * a + s) * c_D g + d) o 0%Z.
(** The positions of the selected tokens. *)
Fixpoint picked (sel : list bool) (i : nat) : list nat :=
  match sel with [] => [] | true :: r => i :: picked r (S i) | false :: r => picked r (S i) end.
(** The tokens to store: the selected ones, or the first [u] if no selection is given. *)
Definition sources (sel : list bool) (u : nat) : list nat := match sel with [] => seq 0 u | _ => picked sel 0 end.
(** The buffers as initCache makes them: one per layer, large enough for both arrangements. *)
Definition buffers (g : config) (m : manager) : Prop :=
  let size k l := length l = c_L g /\ Forall (fun b : list Z => length b = c_H g * c_D g * k) l in
  size (max_cache_len g) (m_kin m) /\ size (max_cache_len g) (m_vin m) /\
  size (max_ar_len g) (m_kout m) /\ size (max_ar_len g) (m_vout m) /\ (m_cur m = c_A g \/ m_cur m = 1).
