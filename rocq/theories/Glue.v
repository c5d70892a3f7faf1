(** Two functions joined at [m]: differentiability and continuity. *)
From Verif Require Import RBase.

Definition glue (f g : R -> R) (m x : R) : R := if Rleb x m then f x else g x.

Lemma glue_derivable f g f' g' m : f m = g m -> f' m = g' m ->
  (forall x, derivable_pt_lim f x (f' x)) -> (forall x, derivable_pt_lim g x (g' x)) ->
  forall x, derivable_pt_lim (glue f g m) x (glue f' g' m x).
Proof.
  intros V D Hf Hg x eps He. unfold glue. destruct (Rtotal_order x m) as [L|[->|G]].
  - rewrite (Rleb_t x m) by lra. destruct (Hf x eps He) as [d Hd].
    exists (mkposreal (Rmin d (m - x)) ltac:(apply Rmin_glb_lt; [apply cond_pos|lra])). cbn [pos]. intros h Hh Hhd.
    rewrite (Rleb_t (x + h) m). { apply Hd; [assumption|]. pose proof (Rmin_l d (m - x)). lra. }
    pose proof (Rmin_r d (m - x)). pose proof (Rle_abs h). lra.
  - rewrite (Rleb_t m m) by lra. destruct (Hf m eps He) as [d1 H1]. destruct (Hg m eps He) as [d2 H2].
    exists (mkposreal (Rmin d1 d2) ltac:(apply Rmin_glb_lt; apply cond_pos)). cbn [pos]. intros h Hh Hhd.
    pose proof (Rmin_l d1 d2). pose proof (Rmin_r d1 d2).
    destruct (Rleb_spec (m + h) m); [apply H1; [assumption|lra]|]. rewrite V, D. apply H2; [assumption|lra].
  - rewrite (Rleb_f x m) by lra. destruct (Hg x eps He) as [d Hd].
    exists (mkposreal (Rmin d (x - m)) ltac:(apply Rmin_glb_lt; [apply cond_pos|lra])). cbn [pos]. intros h Hh Hhd.
    rewrite (Rleb_f (x + h) m). { apply Hd; [assumption|]. pose proof (Rmin_l d (x - m)). lra. }
    pose proof (Rmin_r d (x - m)). pose proof (Rle_abs (- h)) as A. rewrite Rabs_Ropp in A. lra.
Qed.

Lemma glue_continuous f g m : f m = g m -> continuity f -> continuity g -> continuity (glue f g m).
Proof.
  intros V Cf Cg x eps He. destruct (Cf x eps He) as (d1 & P1 & H1). destruct (Cg x eps He) as (d2 & P2 & H2).
  destruct (Rtotal_order x m) as [L|[E|G]].
  - exists (Rmin d1 (m - x)). split; [apply Rmin_glb_lt; lra|]. intros y [Dy Ry]. unfold glue. rewrite (Rleb_t x m) by lra.
    pose proof (Rmin_l d1 (m - x)). pose proof (Rmin_r d1 (m - x)). simpl in Ry. unfold R_dist in Ry. pose proof (Rle_abs (y - x)).
    rewrite (Rleb_t y m) by lra. apply H1. split; [assumption|]. simpl. unfold R_dist. lra.
  - exists (Rmin d1 d2). split; [apply Rmin_glb_lt; lra|]. intros y [Dy Ry]. unfold glue. rewrite (Rleb_t x m) by lra.
    pose proof (Rmin_l d1 d2). pose proof (Rmin_r d1 d2). simpl in Ry. unfold R_dist in Ry.
    destruct (Rleb_spec y m); [apply H1; split; [assumption|simpl; unfold R_dist; lra]|].
    replace (f x) with (g x) by (rewrite E; now rewrite V). apply H2; split; [assumption|simpl; unfold R_dist; lra].
  - exists (Rmin d2 (x - m)). split; [apply Rmin_glb_lt; lra|]. intros y [Dy Ry]. unfold glue. rewrite (Rleb_f x m) by lra.
    pose proof (Rmin_l d2 (x - m)). pose proof (Rmin_r d2 (x - m)). simpl in Ry. unfold R_dist in Ry.
    pose proof (Rle_abs (- (y - x))) as A. rewrite Rabs_Ropp in A. rewrite (Rleb_f y m) by lra. apply H2. split; [assumption|]. simpl. unfold R_dist. lra.
Qed.
