(** Model of the weights of a rig and of blending one coordinate by them, in single
    precision (src/motive/processor/rig_data.h).

    RigModel.v follows the same functions with exact real numbers.  Here every `float`
    operation rounds with [rnd], in the order of the source; no operations are fused and
    nothing overflows. *)
From Verif Require Import RBase RoundModel.

Section Operations.
Variable rnd : R -> R.

(** rig_data.h:96-104, 188-193: the total of the weights given. *)
Fixpoint f_weights_total (ws : list R) (total : R) : option R :=
  match ws with [] => Some total | w :: l => assert Rleb 0 w ;; f_weights_total l (rnd (total + w)) end.
(** rig_data.h:127 (BlendToAnims): the weights of the rig. *)
Definition f_blend_weights (ws : list R) : option (list R) :=
  total <- f_weights_total ws 0 ;;
  assert Rltb 0 total ;;
  Some (map (fun w => rnd (w / total)) ws).
(** rig_data.h:187-201 (SetWeights), for a rig of which the weights are [old]. *)
Fixpoint f_assign_weights (old ws : list R) (total : R) : list R :=
  match old, ws with
  | [], _ => []
  | _ :: old', [] => 0 :: f_assign_weights old' [] total
  | _ :: old', w :: ws' => rnd (w / total) :: f_assign_weights old' ws' total
  end.
Definition f_set_weights (ws old : list R) : option (list R) :=
  total <- f_weights_total ws 0 ;;
  assert Rltb 0 total ;;
  Some (f_assign_weights old ws total).
(** rig_data.h:448, 450: one coordinate of the position or of the scale of a bone, [ps] in
    the animations of weights [ws]. *)
Fixpoint f_blend_coordinate (ws ps : list R) (acc : R) : R :=
  match ws, ps with
  | w :: ws', p :: ps' => f_blend_coordinate ws' ps' (rnd (acc + rnd (p * w)))
  | _, _ => acc
  end.
End Operations.
