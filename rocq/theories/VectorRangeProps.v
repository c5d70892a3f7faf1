(** C109, the modular ranges: each coordinate keeps the range that it was last initialised with, whatever else is done. *)
From Verif Require Import Base BaseFacts RangeModel EvaluatorModel CompactSplineModel OvershootModel SplineTargetModel SplineTargetProps SplineClassModel VectorMotivatorModel VectorMotivatorProps FadeProofs.
From Coq Require Import Reals ZArith List Lia Bool.
Import ListNotations.
Local Open Scope Z_scope.

(** The range of the last initialisation that covers index [j]; [r] if there is none. *)
Fixpoint last_range (j : Z) (l : list call) (r : range) : range :=
  match l with
  | [] => r
  | Initialize i n r' :: l' => last_range j l' (if (i <=? j) && (j <? i + Z.of_nat n) then r' else r)
  | _ :: l' => last_range j l' r
  end.
Lemma effect_range j c s s' : effect j c s = Some s' -> modular_range s' = last_range j [c] (modular_range s).
Proof.
  destruct c as [i n r|i n|i ts|i l p|i l p ts|i n t|i n q|i n b|d]; cbn [effect last_range]; unfold within.
  - destruct ((i <=? j) && (j <? i + Z.of_nat n)); intros [= <-]; reflexivity.
  - destruct ((i <=? j) && (j <? i + Z.of_nat n)); intros [= <-]; reflexivity.
  - destruct (getz ts (j - i)) as [t|]; [|intros [= <-]; reflexivity]. intros E. apply set_target_range in E. tauto.
  - destruct (getz l (j - i)) as [sp|]; [|intros [= <-]; reflexivity]. intros E. apply set_spline_range in E. tauto.
  - destruct (getz l (j - i)) as [[sp|]|]; [|destruct (getz ts (j - i)) as [t|]|]; try (intros [= <-]; reflexivity); intros E; [apply set_spline_range in E|apply set_target_range in E]; tauto.
  - destruct ((i <=? j) && (j <? i + Z.of_nat n)); [|intros [= <-]; reflexivity]. destruct (init_cubic s (IZR t)) as [s1|] eqn:E; [|discriminate]. intros [= <-]. apply init_cubic_range in E. rewrite <- E. reflexivity.
  - destruct ((i <=? j) && (j <? i + Z.of_nat n)); intros [= <-]; reflexivity.
  - destruct ((i <=? j) && (j <? i + Z.of_nat n)); intros [= <-]; reflexivity.
  - intros E. apply advance_range in E. tauto.
Qed.
Theorem C109_range : forall l ev ev' j s, do_calls l ev = Some ev' -> getz ev j = Some s -> exists s', getz ev' j = Some s' /\ modular_range s' = last_range j l (modular_range s).
Proof.
  induction l as [|c l IH]; intros ev ev' j s E G; cbn [do_calls] in E; [injection E as <-; exists s; auto|]. destruct (do_call c ev) as [ev1|] eqn:C; [|discriminate]. destruct (call_getz _ _ _ C) as (L & H). specialize (H j). rewrite G in H. destruct (effect j c s) as [s1|] eqn:F.
  - destruct (IH _ _ _ _ E H) as (s' & G' & R'). exists s'. split; [exact G'|]. rewrite R', (effect_range _ _ _ _ F). destruct c; reflexivity.
  - exfalso. pose proof (getz_Some _ _ _ G) as HR. destruct (getz_in_range ev1 j) as [x X]; [lia|]. congruence.
Qed.
Print Assumptions C109_range.
(** Two motivators, of two coordinates and of one; the second coordinate is initialised again. *)
Example C109_range_case : exists ev', do_calls [Initialize 0 2 (Rg (-1) 1); Initialize 2 1 (Rg (-2) 2); SetSplinePlaybackRate 0 3 2%R; Initialize 1 1 (Rg (-3) 3)] (set_num_indices [] 3) = Some ev' /\
  map modular_range ev' = [Rg (-1) 1; Rg (-3) 3; Rg (-2) 2].
Proof. eexists. split; reflexivity. Qed.
