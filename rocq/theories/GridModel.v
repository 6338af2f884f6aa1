(** The grid a page is cut into: the candidates of dynamicPreprocess and
    findClosestAspectRatio, models/deepseek_ocr/conversation_preprocess.hpp:361-384, 408-424.

    Simplifications.  Quotients are exact rationals (doubles in the code); std::set and
    std::sort give some list of the candidates sorted by the number of tiles (equal numbers
    in any order, see PropertiesGrid.v). *)
From Coq Require Import QArith Qabs.
From Verif Require Import Base.
Local Open Scope Z_scope.

(** Lines 408-418, before sorting, with repetitions. *)
Definition candidates (min_num max_num : nat) : list (Z * Z) :=
  flat_map (fun n => flat_map (fun i => flat_map (fun j =>
    if (Z.of_nat min_num <=? Z.of_nat i * Z.of_nat j) && (Z.of_nat i * Z.of_nat j <=? Z.of_nat max_num)
    then [(Z.of_nat i, Z.of_nat j)] else []) (seq 1 n)) (seq 1 n)) (seq min_num (max_num + 1 - min_num)).

(** Lines 368-369. *)
Definition ratio_diff (w h : Z) (r : Z * Z) : Q := Qabs ((w # 1) / (h # 1) - (fst r # 1) / (snd r # 1))%Q.
(** Lines 361-384; None is infinity. *)
Definition closest (w h size : Z) (l : list (Z * Z)) : option Q * (Z * Z) :=
  fold_left (fun st r =>
    let d := ratio_diff w h r in
    match fst st with
    | None => (Some d, r)
    | Some b =>
      if Qlt_le_dec d b then (Some d, r)
      else if Qeq_bool d b then (if size * size * fst r * snd r <? 2 * (w * h) then (Some b, r) else st)
      else st
    end) l (None, (1, 1)).
