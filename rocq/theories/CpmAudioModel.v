(** The number of frames of a recording: audio_preprocessor_minicpmo.hpp:231-234. *)
From Coq Require Import Reals.
From Flocq Require Import Core.
From Verif Require Import Base DTypeModel QuantModel.
Local Open Scope R_scope.

(** static_cast<int32_t>(std::ceil(static_cast<float>(audio_length) / hop_length_)), hop_length_ = 160: the conversion and the
    division round to binary32; numbers this size do not overflow. *)
Definition to_f32 (x : R) : R := nearest (-149) 24 x.
Definition audio_frames (len : Z) : Z := Zceil (to_f32 (to_f32 (IZR len) / 160)).
