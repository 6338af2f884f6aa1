(** Specification vocabulary for the rotary embeddings of the vision-language models. *)
From Coq Require Import Reals.
From Verif Require Import Base DTypeModel ParamModel ParamSpec TensorModel TensorSpec OpsModel OpsSpec MatModel MatSpec AttnModel AttnSpec NumModel NumSpec RopeModel RopeSpec.
Local Open Scope Z_scope.

(** The place of an element's token in the sequence. *)
Definition place (lay : layout) (idx : list Z) : Z :=
  match idx with
  | _ :: i :: j :: _ => match lay with BHSD => j | BSHD => i end
  | _ => 0
  end.
(** A row with the pair (d, d + half) turned by the angle theta(d). *)
Definition spun (half : Z) (theta : Z -> R) (x : Z -> R) : Z -> R :=
  rotated half (fun d => sin (theta d)) (fun d => cos (theta d)) x.
(** All rows of an activation, the row of the token at place s with the sines Sn[s, .] and cosines Cs[s, .]. *)
Definition rope_by_place (lay : layout) (half : Z) (Sn Cs F : list Z -> R) (idx : list Z) : R :=
  rotated half (fun d => Sn [place lay idx; d]) (fun d => Cs [place lay idx; d]) (fun d => F (removelast idx ++ [d])) (last idx 0).
(** The same with angles. *)
Definition spun_by_place (lay : layout) (half : Z) (theta : Z -> Z -> R) (F : list Z -> R) (idx : list Z) : R :=
  spun half (theta (place lay idx)) (fun d => F (removelast idx ++ [d])) (last idx 0).
