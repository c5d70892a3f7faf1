(** Model of the initialisers that are read from FlatBuffers: src/motive/io/flatbuffers.cpp,
    lines 49-74, with the tables of schemas/motive.fbs.

    Tables of a FlatBuffer are optional: an absent one is a null pointer, and reading its
    members fails.  Numbers and bools that are absent have the defaults of the schema, so
    they are members that are always there. *)
From Verif Require Import RBase RangeModel OvershootModel.

(** schemas/motive.fbs:18-26 (Settled1fParameters), 28-41 (ModularParameters) *)
Record settled_params := SettledParams { p_max_difference : R; p_settled_velocity : R }.
Record modular_params := ModularParams { p_modular : bool; p_min : R; p_max : R }.
(** schemas/motive.fbs:50-82 (OvershootParameters); max_delta_time is a short. *)
Record overshoot_params := OvershootParams {
  p_base : option modular_params; p_max_velocity : R; p_max_delta : R; p_at_target : option settled_params;
  p_acceleration : R; p_wrong_direction : R; p_max_delta_time : Z
}.
(** What the tables hold when no member is given. *)
Definition default_modular : modular_params := ModularParams false 0 0.
Definition default_settled : settled_params := SettledParams 0 0.
Definition default_overshoot : overshoot_params := OvershootParams None 0 0 None 0 0 32767.

(** flatbuffers.cpp:70-74 (Settled1fFromFlatBuffers) *)
Definition settled_from (p : settled_params) : settled := SettledAt (p_max_difference p) (p_settled_velocity p).
(** flatbuffers.cpp:49-61 (OvershootInitFromFlatBuffers): every member is set, whatever the
    initialiser was before. *)
Definition overshoot_from (p : overshoot_params) : option oinit :=
  b <- p_base p ;;
  t <- p_at_target p ;;
  Some (OInit (Some (Rg (p_min b) (p_max b))) (p_modular b) (p_max_velocity p) (Some (p_max_delta p)) (settled_from t)
              (p_acceleration p) (p_wrong_direction p) (p_max_delta_time p)).
(** flatbuffers.cpp:63-68 (SplineInitFromFlatBuffers), with SplineParameters (motive.fbs:84-87);
    the range of a SplineInit. *)
Definition spline_range_from (base : option modular_params) : option range :=
  b <- base ;; Some (if p_modular b then Rg (p_min b) (p_max b) else range_default).
