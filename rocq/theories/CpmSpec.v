(** Vocabulary of the MiniCPM-o input: pixels, sections, slots. *)
From Verif Require Import Base DTypeModel ParamModel TensorModel CpmModel.
Local Open Scope nat_scope.

(** The byte of a pixel. *)
Definition pixel (img : image) (y x c : nat) : option Z :=
  if (y <? i_h img) && (x <? i_w img) && (c <? i_c img) then nth_error (i_data img) ((y * i_w img + x) * i_c img + c) else None.
(** An image with all its bytes, three per pixel. *)
Definition rgb (img : image) : Prop := i_c img = 3 /\ length (i_data img) = i_w img * i_h img * 3.
(** Resampling gives an image of the asked-for size. *)
Definition resizes (resize : image -> nat -> nat -> image) : Prop :=
  forall img w h, i_w (resize img w h) = w /\ i_h (resize img w h) = h /\ rgb (resize img w h).
(** The pictures of a message in order: the whole image, then the slices row by row. *)
Definition pictures (r : image * list (list image) * option (nat * nat)) : list image := fst (fst r) :: concat (snd (fst r)).
Definition slices (g : option (nat * nat)) : nat := match g with None => 0 | Some g => fst g * snd g end.
(** A comparison that sorts by an error in some order. *)
Definition sorts {E : Type} (lt : E -> E -> Prop) (err : nat * nat -> E) (closer : option (nat * nat) -> nat * nat -> bool) : Prop :=
  (forall a, ~ lt a a) /\ (forall a b c, lt a b -> lt b c -> lt a c) /\ (forall a b c, lt a b -> lt a c \/ lt c b) /\
  (forall g, closer None g = true) /\ (forall b g, closer (Some b) g = true <-> lt (err g) (err b)).
(** No section begins or ends in the text. *)
Definition section_mark (s : special) : bool := match s with SImage | SImageEnd | SSlice | SSliceEnd => true | _ => false end.
Definition no_sections (t : text) : Prop := forall s, In (Special s) t -> section_mark s = false.
(** A vocabulary: special tokens have ids of their own. *)
Definition vocabulary (ids : special -> Z) (bpe : list Z -> list Z) : Prop :=
  (forall s s', ids s = ids s' -> s = s') /\ forall run x s, In x (bpe run) -> x <> ids s.
