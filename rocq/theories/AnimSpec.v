(** What the animation pipeline theorems talk about, apart from the model's functions. *)
From Verif Require Import RBase CurveModel AnimDataModel.
Local Open Scope Z_scope.

(** Consecutive elements are related. *)
Fixpoint chain {A} (P : A -> A -> Prop) (x : A) (l : list A) : Prop :=
  match l with [] => True | y :: r => P x y /\ chain P y r end.

(** A recorded sample: its index and the time of its node. *)
Notation mark := (Z * Z)%type.
Definition sample_node (vals ders : list R) (m : mark) (n : snode) : Prop :=
  sn_time n = snd m /\ getz vals (fst m) = Some (sn_val n) /\ getz ders (fst m) = Some (sn_der n).
(** The cubic between two nodes. *)
Definition cubic_between (a b : snode) : cubic := cubic_init (sn_val a) (sn_der a) (sn_val b) (sn_der b) (IZR (sn_time b - sn_time a)).
(** Samples between two recorded ones, taken to be evenly spaced, are within [tol] of the cubic
    between them. *)
Definition fits (vals ders : list R) (tol : R) (a b : mark) : Prop :=
  forall na nb k v, sample_node vals ders a na -> sample_node vals ders b nb -> fst a < k < fst b -> getz vals k = Some v ->
    (Rabs (keval (cubic_between na nb) (IZR (k - fst a) * (IZR (snd b - snd a) / IZR (fst b - fst a))) - v) <= tol)%R.
(** New nodes after old ones, without repeating a node. *)
Definition append_curve (old : list snode) (n : snode) (ns : list snode) : list snode :=
  if snode_eqb (last old (SNode 0 0 0)) n && negb (len old =? 0) then old ++ ns else old ++ n :: ns.
(** The time at which sample [k] of [count] was taken. *)
Definition sample_time (t0 t1 count k : Z) : R := (IZR t0 + IZR k * (IZR (t1 - t0) / IZR (count - 1)))%R.
(** The nodes of [n] at the indices [ks]. *)
Definition picked (n : list snode) (ks : list Z) (xs : list snode) : Prop := Forall2 (fun k x => getz n k = Some x) ks xs.
(** Times whose differences are ints. *)
Definition times_ok (n : list snode) : Prop := forall x y, In x n -> In y n -> - 2147483648 <= sn_time x - sn_time y <= 2147483647.
(** Node [m] is within the tolerances of the curve from [a] to [b]: of its value and slope
    at the time of [m], or [a] and [b] are nearly the same node at one time. *)
Definition near (t : tolerances) (tol : R) (a b m : snode) : Prop :=
  (sn_time a = sn_time b /\ (Rabs (sn_val a - sn_val b) < tol)%R) \/
  ((Rabs (keval (cubic_between a b) (IZR (sn_time m - sn_time a)) - sn_val m) < tol)%R /\
   (Rabs (atan (kderiv (cubic_between a b) (IZR (sn_time m - sn_time a)) - sn_der m)) < tl_angle t)%R).
(** The nodes strictly between [i] and [j] can be left out. *)
Definition removable (t : tolerances) (tol : R) (n : list snode) (i j : Z) : Prop :=
  exists a b, getz n i = Some a /\ getz n j = Some b /\
    ((sn_time a = sn_time b /\ (Rabs (sn_val a - sn_val b) < tol)%R /\ (Rabs (atan (sn_der a - sn_der b)) < tl_angle t)%R) \/
     forall k m, i < k < j -> getz n k = Some m ->
       (Rabs (keval (cubic_between a b) (IZR (sn_time m - sn_time a)) - sn_val m) < tol)%R /\
       (Rabs (atan (kderiv (cubic_between a b) (IZR (sn_time m - sn_time a)) - sn_der m)) < tl_angle t)%R).

(** Bones that correspond one to one, with the same names, parents, operations and ids, and nodes related by [P]. *)
Definition same_skeleton (P : list snode -> list snode -> Prop) (d d' : anim_data) : Prop :=
  ad_cur d' = ad_cur d /\ ad_tol d' = ad_tol d /\ ad_root_only d' = ad_root_only d /\
  Forall2 (fun b b' => bn_name b' = bn_name b /\ bn_parent b' = bn_parent b /\
    Forall2 (fun c c' => ch_op c' = ch_op c /\ ch_id c' = ch_id c /\ P (ch_nodes c) (ch_nodes c')) (bn_channels b) (bn_channels b')) (ad_bones d) (ad_bones d').
Definition moved_by (offset : Z) (n n' : list snode) : Prop :=
  Forall2 (fun x x' => sn_time x' = sn_time x + offset /\ sn_val x' = sn_val x /\ sn_der x' = sn_der x) n n'.
(** A channel with more than one node is animated. *)
Definition animated (d : anim_data) (n : list snode) : Prop := exists b c, In b (ad_bones d) /\ In c (bn_channels b) /\ n = ch_nodes c /\ 1 < len n.
(** The curve through the nodes passes through the value [v] at the time [x]. *)
Definition curve_at (n : list snode) (x v : R) : Prop :=
  exists i a b, getz n i = Some a /\ getz n (i + 1) = Some b /\ (IZR (sn_time a) <= x < IZR (sn_time b))%R /\ v = keval (cubic_between a b) (x - IZR (sn_time a)).
Definition end_node (n : list snode) : snode := last n (SNode 0 0 0).
Definition first_node (n : list snode) : snode := hd (SNode 0 0 0) n.
(** A channel ends as it starts, within tolerance. *)
Definition ends_as_it_starts (t : tolerances) (c : channel) : Prop :=
  (Rabs (sn_val (first_node (ch_nodes c)) - sn_val (end_node (ch_nodes c))) < tolerance_for_op t (ch_op c))%R /\
  (Rabs (atan (sn_der (first_node (ch_nodes c)) - sn_der (end_node (ch_nodes c)))) < tl_repeat_angle t)%R.
