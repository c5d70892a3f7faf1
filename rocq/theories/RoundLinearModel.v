(** Model of the simulation of src/samples/linear_processor/linear_processor.cpp in single
    precision.

    LinearModel.v follows the same functions with exact real numbers, and its records are used
    here.  Every `float` operation rounds with [rnd], the conversions of times (ints) included. *)
From Verif Require Import RBase Base LinearModel RoundModel.
Open Scope R_scope.

Section Operations.
Variable rnd : R -> R.

(** mathfu::Lerp *)
Definition f_mlerp (a b percent : R) : R := rnd (rnd (rnd (1 - percent) * a) + rnd (percent * b)).
(** linear_processor.cpp:60-74: one round of the loop of AdvanceFrame. *)
Definition f_lstep (dt : Z) (x : lelem) : lelem :=
  let v := if Rltb 0 (l_time x) then f_mlerp (l_value x) (l_target x) (rnd (rnd (IZR dt) / l_time x)) else l_target x in
  LElem (l_target x) (rnd (l_time x - rnd (IZR dt))) v.
(** linear_processor.cpp:58-75 (AdvanceFrame), frames one after the other. *)
Definition f_lrun (frames : list Z) (st : lstate) : lstate := fold_left (fun s dt => map (f_lstep dt) s) frames st.
End Operations.
