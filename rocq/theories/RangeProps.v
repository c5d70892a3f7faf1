(** Properties C17-C20: RangeT over the reals. *)
From Verif Require Import RBase BaseFacts RangeModel RangeProofs.

(** C17: the normalised value is in (start, end] and differs from the input by a
    whole number of lengths (there is only one such value); NormalizeCloseValue
    gives the same; Normalize gives the same or, too far away, fails its assert. *)
Theorem C17_normalize : forall r x, start_ r < end_ r ->
  (exists y, normalize_wild r x = Some y /\ start_ r < y <= end_ r /\
    (exists k : Z, y = x + IZR k * (end_ r - start_ r)) /\
    normalize_close r x = Some y /\
    (2 * start_ r - end_ r < x <= 2 * end_ r - start_ r -> normalize r x = Some y)) /\
  (normalize r x <> None -> 2 * start_ r - end_ r < x <= 2 * end_ r - start_ r).
Proof. exact C17_proof. Qed.

(** With a zero-length range there is no normalised value and the asserts fail. *)
Theorem C17_zero_length_fails : forall r x, start_ r = end_ r -> normalize r x = None /\ normalize_wild r x = None.
Proof.
  intros r x E. unfold normalize, normalize_wild, contains_excl_start, modular_adjustment, length_. rewrite E.
  split; [|rewrite Reqb_t by lra; reflexivity]. rcases; reflexivity.
Qed.

Example C17_case : start_ (Rg (-2) 3) < end_ (Rg (-2) 3) /\ normalize_close (Rg (-2) 3) 104 = Some (-1).
Proof.
  cbn [start_ end_]. split; [lra|]. destruct (C17_proof (Rg (-2) 3) 104) as [(y & A & B & (k & Ek) & C & _) _]; cbn [start_ end_] in *; [lra|].
  rewrite C. f_equal. assert (k = -21)%Z; [|subst; lra].
  assert (-22 < k)%Z by (apply lt_IZR; lra). assert (k < -20)%Z by (apply lt_IZR; lra). lia.
Qed.

(** C18 for the ranges it holds for: those centred on 0, with a and b in range.
    Every difference leads from a to b modulo the length; Closest is the shortest
    such difference; Farthest goes the other way round; Positive is in
    [0, length), Negative in [-length, 0). *)
Theorem C18_mod_diff_partial : forall r a b, 0 < end_ r -> start_ r = - end_ r ->
  start_ r <= a <= end_ r -> start_ r <= b <= end_ r ->
  exists c f p n, mod_diff r a b Closest = Some c /\ mod_diff r a b Farthest = Some f /\
    mod_diff r a b Positive = Some p /\ mod_diff r a b Negative = Some n /\ mod_diff r a b Direct = Some (b - a) /\
    (forall d, In d [c; f; p; n] -> exists k : Z, a + d = b + IZR k * length_ r) /\
    (forall k : Z, Rabs c <= Rabs (b - a + IZR k * length_ r)) /\
    (Rabs f = length_ r - Rabs c /\ f * c <= 0) /\
    0 <= p < length_ r /\ - length_ r <= n < 0.
Proof. exact C18_proof. Qed.
Example C18_case : 0 < end_ (Rg (-180) 180) /\ start_ (Rg (-180) 180) = - end_ (Rg (-180) 180) /\
  mod_diff (Rg (-180) 180) 170 (-170) Closest = Some 20.
Proof.
  cbn [start_ end_]. split; [lra|]. split; [lra|]. unfold mod_diff, mod_diff_close, normalize, modular_adjustment, contains_excl_start, length_.
  cbn [start_ end_]. rcases. f_equal. lra.
Qed.

(** C18 is false in general: with a range of (0, 360] the "closest" way from 10 to
    350 is 340, although -20 leads there too. *)
Theorem C18_closest_refuted : exists r a b c, start_ r < end_ r /\ start_ r < a <= end_ r /\ start_ r < b <= end_ r /\
  mod_diff r a b Closest = Some c /\ exists k : Z, Rabs (b - a + IZR k * length_ r) < Rabs c.
Proof.
  exists (Rg 0 360), 10, 350, 340. cbn [start_ end_]. repeat split; try lra.
  - unfold mod_diff, mod_diff_close, normalize, modular_adjustment, contains_excl_start, length_.
    cbn [start_ end_]. rcases. f_equal. lra.
  - exists (-1)%Z. unfold length_. cbn [start_ end_]. rabs; lra.
Qed.
(** And it can fail its assert, or give a negative "positive" difference. *)
Theorem C18_far_from_zero_refuted :
  (exists r a, start_ r < a <= end_ r /\ mod_diff r a a Closest = None) /\
  (exists r a b p, start_ r < a <= end_ r /\ start_ r < b <= end_ r /\ mod_diff r a b Positive = Some p /\ p < 0).
Proof.
  split.
  - exists (Rg 100 200), 150. cbn [start_ end_]. split; [lra|].
    unfold mod_diff, mod_diff_close, normalize, modular_adjustment, contains_excl_start, length_. cbn [start_ end_]. rcases; reflexivity.
  - exists (Rg (-210) (-110)), (-111), (-190), (-79). cbn [start_ end_]. repeat split; try lra.
    unfold mod_diff, mod_diff_positive, mod_diff_close, normalize, modular_adjustment, contains_excl_start, length_. cbn [start_ end_].
    rcases; f_equal; lra.
Qed.

(** C19, first part: the members of an intersection are the common members, for
    all ranges; of disjoint ranges the inverted intersection is the gap. *)
Theorem C19_intersect : forall a b,
  (forall x, contains (intersect a b) x = true <-> (start_ a <= x <= end_ a /\ start_ b <= x <= end_ b)) /\
  (valid (intersect a b) = true <-> exists x, start_ a <= x <= end_ a /\ start_ b <= x <= end_ b) /\
  (start_ a <= end_ a -> start_ b <= end_ b -> valid (intersect a b) = false ->
     invert (intersect a b) = (if Rltb (end_ a) (start_ b) then Rg (end_ a) (start_ b) else Rg (end_ b) (start_ a)) /\
     start_ (invert (intersect a b)) < end_ (invert (intersect a b))).
Proof.
  intros a b. split; [|split].
  - intros x. rewrite contains_iff. unfold intersect. cbn [start_ end_]. minmax; lra.
  - rewrite valid_iff. unfold intersect. cbn [start_ end_]. split.
    + intros H. exists (Rmax (start_ a) (start_ b)). minmax; lra.
    + intros (x & A & B). minmax; lra.
  - intros Ha Hb Hv. unfold valid, intersect, invert in *. cbn [start_ end_] in *. apply Rleb_false in Hv.
    split; [|assumption]. destruct (Rltb_spec (end_ a) (start_ b)); f_equal; minmax; lra.
Qed.

(** C19, second part: Union and Include of valid ranges are the smallest ranges
    holding their operands. *)
Theorem C19_union : forall a b x, start_ a <= end_ a -> start_ b <= end_ b ->
  let u := union a b in let i := include a x in
  (start_ u <= start_ a /\ end_ a <= end_ u /\ start_ u <= start_ b /\ end_ b <= end_ u) /\
  (forall r, (forall y, start_ a <= y <= end_ a \/ start_ b <= y <= end_ b -> start_ r <= y <= end_ r) ->
     start_ r <= start_ u /\ end_ u <= end_ r) /\
  (start_ i <= start_ a /\ end_ a <= end_ i /\ start_ i <= x <= end_ i) /\
  (forall r, (forall y, start_ a <= y <= end_ a \/ y = x -> start_ r <= y <= end_ r) ->
     start_ r <= start_ i /\ end_ i <= end_ r).
Proof.
  intros a b x Ha Hb. cbv zeta. unfold union, include. cbn [start_ end_].
  split; [minmax; lra|]. split; [|split; [minmax; lra|]].
  - intros r H. assert (A1 := H (start_ a)). assert (A2 := H (end_ a)). assert (A3 := H (start_ b)). assert (A4 := H (end_ b)). minmax; lra.
  - intros r H. assert (A1 := H (start_ a)). assert (A2 := H (end_ a)). assert (A3 := H x). minmax; lra.
Qed.

(** For invalid operands "smallest" fails: a default-constructed range, which
    contains nothing, still widens a union. *)
Theorem C19_union_invalid_refuted : exists b, start_ b <= end_ b /\ (forall x, contains range_default x = false) /\
  exists x, contains (union range_default b) x = true /\ contains b x = false.
Proof.
  exists (Rg 5 6). cbn [start_ end_]. split; [lra|]. split.
  - intros x. unfold contains, range_default. cbn [start_ end_]. rcases; reflexivity.
  - exists 2. unfold contains, union, range_default. cbn [start_ end_]. minmax; rcases; auto; lra.
Qed.

(** C19, third part: Clamp gives the nearest contained value, DistanceFrom its
    distance; the one-sided clamps agree with it when the other bound holds. *)
Theorem C19_clamp : forall r x, start_ r <= end_ r ->
  start_ r <= clamp r x <= end_ r /\
  (forall y, start_ r <= y <= end_ r -> y <> clamp r x -> Rabs (x - clamp r x) < Rabs (x - y)) /\
  (clamp r x = x <-> start_ r <= x <= end_ r) /\
  distance_from r x = Rabs (x - clamp r x) /\
  (x <= end_ r -> clamp_after_start r x = clamp r x) /\
  (start_ r <= x -> clamp_before_end r x = clamp r x) /\
  (forall eps, distance_from r x <= eps <-> start_ r - eps <= x <= end_ r + eps /\ 0 <= eps).
Proof.
  intros r x H. unfold distance_from, clamp_after_start, clamp_before_end.
  destruct (clamp_cases r x H) as [[A E]|[[A E]|[A E]]]; rewrite !E; repeat split; intros; try lra; try (minmax; lra); rabs; lra.
Qed.

(** C19, fourth part: Lengthen keeps the centre and adds [percent] of the length;
    Lerp and Percent are inverse to each other. *)
Theorem C19_lengthen : forall r p x,
  middle (lengthen r p) = middle r /\ length_ (lengthen r p) = (1 + p) * length_ r /\
  lerp r 0 = start_ r /\ lerp r 1 = end_ r /\
  (length_ r <> 0 -> lerp r (percent r x) = x /\ percent r (lerp r x) = x).
Proof.
  intros r p x. unfold middle, lengthen, length_, lerp, percent. cbn [start_ end_].
  split; [field|]. split; [field|]. split; [ring|]. split; [ring|]. unfold length_. intros Hl. split; field; lra.
Qed.
(** The comment in range.h ("if percent is < 1.0, then returned range will actually
    be shorter") is wrong. *)
Theorem C19_lengthen_comment_refuted : exists r p, start_ r < end_ r /\ p < 1 /\ length_ r < length_ (lengthen r p).
Proof. exists (Rg 0 2), (1 / 2). unfold length_, lengthen. cbn [start_ end_]. unfold length_. cbn [start_ end_]. lra. Qed.

(** C19, fifth part: ClampToClosest returns a point of one of the ranges, and no
    point of any of them is nearer. *)
Theorem C19_clamp_to_closest : forall x l, (forall r, In r l -> start_ r <= end_ r) ->
  (l = [] -> clamp_to_closest x l = x) /\
  (l <> [] -> (exists r, In r l /\ start_ r <= clamp_to_closest x l <= end_ r) /\
     (forall r z, In r l -> start_ r <= z <= end_ r -> Rabs (x - clamp_to_closest x l) <= Rabs (x - z))).
Proof.
  intros x l H. split; [now intros ->|]. intros Hne. now apply clamp_to_closest_ok.
Qed.

(** C20: ValuesInRange moves exactly the values within [epsilon] of the range,
    clamped, to the front, in order, and returns their number. *)
Theorem C20_values_in_range : forall r eps values, start_ r <= end_ r -> 0 <= eps ->
  exists kept junk, values_in_range r eps values = Some (map (clamp r) kept ++ junk, len kept) /\
    length (map (clamp r) kept ++ junk) = length values /\
    kept = filter (fun v => Rleb (start_ r - eps) v && Rleb v (end_ r + eps)) values.
Proof.
  intros r eps values Hr He. destruct (values_in_range_ok r eps values) as (junk & E & L).
  set (P := fun v => Rleb (Rabs (v - clamp r v)) eps) in *.
  exists (filter P values), junk. split; [exact E|]. split.
  - rewrite app_length, map_length. unfold len in L. lia.
  - apply filter_ext. intros v. unfold P. destruct (C19_clamp r v Hr) as (_ & _ & _ & D & _ & _ & K).
    specialize (K eps). unfold distance_from in *.
    destruct (Rleb_spec (Rabs (v - clamp r v)) eps), (Rleb_spec (start_ r - eps) v), (Rleb_spec v (end_ r + eps)); cbn [andb]; try reflexivity; exfalso; tauto.
Qed.

(** C20: the intersections are those of all pairs that meet, in order, the gaps
    those of all pairs that do not. *)
Theorem C20_intersect_ranges : forall a b,
  intersect_ranges a b =
    (filter valid (map (fun p => intersect (fst p) (snd p)) (list_prod a b)),
     map invert (filter (fun i => negb (valid i)) (map (fun p => intersect (fst p) (snd p)) (list_prod a b)))).
Proof.
  intros a b. rewrite intersect_ranges_ok. cbv zeta.
  assert (E : flat_map (fun x => map (intersect x) b) a = map (fun p => intersect (fst p) (snd p)) (list_prod a b)).
  { induction a as [|x a IH]; [reflexivity|]. cbn [flat_map list_prod]. rewrite map_app, map_map, IH. reflexivity. }
  now rewrite E.
Qed.
Theorem C20_intersect_ranges_points : forall a b x,
  (exists i, In i (fst (intersect_ranges a b)) /\ start_ i <= x <= end_ i) <->
  (exists p q, In p a /\ In q b /\ start_ p <= x <= end_ p /\ start_ q <= x <= end_ q).
Proof.
  intros a b x. rewrite C20_intersect_ranges. cbn [fst]. split.
  - intros (i & Hi & Hx). apply filter_In in Hi as [Hi _]. apply in_map_iff in Hi as ([p q] & <- & Hp). apply in_prod_iff in Hp as [Hp Hq].
    exists p, q. cbn [fst snd] in *. destruct (C19_intersect p q) as [K _]. apply contains_iff in Hx. apply K in Hx. tauto.
  - intros (p & q & Hp & Hq & Ax & Bx). exists (intersect p q). destruct (C19_intersect p q) as (K & V & _). split.
    + apply filter_In. split; [apply in_map_iff; exists (p, q); split; [reflexivity|now apply in_prod]|]. apply V. eauto.
    + apply contains_iff, K. auto.
Qed.

(** C20: the first longest and the first shortest (of a non-empty array; for
    IndexOfLongest of valid ranges). *)
Theorem C20_index_of_longest : forall l, l <> [] -> (forall r, In r l -> start_ r <= end_ r) ->
  exists r, nth_error l (index_of_longest l) = Some r /\
    (forall j r', nth_error l j = Some r' -> length_ r' <= length_ r) /\
    (forall j r', (j < index_of_longest l)%nat -> nth_error l j = Some r' -> length_ r' < length_ r).
Proof.
  intros l Hne Hl. destruct (longest_ok l [] (-1) 0%nat) as (r & H); cbn [app length] in *; auto; try easy; [|eauto].
  intros r Hr. specialize (Hl r Hr). unfold length_. lra.
Qed.
Theorem C20_index_of_shortest : forall l, l <> [] ->
  exists r, nth_error l (index_of_shortest l) = Some r /\
    (forall j r', nth_error l j = Some r' -> length_ r <= length_ r') /\
    (forall j r', (j < index_of_shortest l)%nat -> nth_error l j = Some r' -> length_ r < length_ r').
Proof.
  intros l Hne. destruct (shortest_ok l [] None 0%nat) as (r & H); cbn [app length] in *; auto; try easy. eauto.
Qed.
(** For ranges more than 1 inside out, IndexOfLongest returns 0 whatever they are. *)
Theorem C20_index_of_longest_invalid_refuted : exists l r0 r1, l = [r0; r1] /\
  index_of_longest l = 0%nat /\ length_ r0 < length_ r1.
Proof.
  exists [Rg 9 0; Rg 3 0], (Rg 9 0), (Rg 3 0). split; [reflexivity|]. unfold index_of_longest, length_. cbn [longest_loop].
  unfold length_. cbn [start_ end_]. split; [|lra]. rcases; reflexivity.
Qed.

(** C20: Covers is the smallest range holding all the values. *)
Theorem C20_covers : forall l,
  match covers l with
  | None => l = []
  | Some r => l <> [] /\ (forall x, In x l -> start_ r <= x <= end_ r) /\
      forall lo hi, (forall x, In x l -> lo <= x <= hi) -> lo <= start_ r /\ end_ r <= hi
  end.
Proof.
  intros l. unfold covers. pose proof (covers_ok l None ltac:(discriminate)) as H.
  destruct (covers_loop None l) as [r|] eqn:E; [|tauto]. destruct H as (_ & _ & A & B).
  split; [intros ->; discriminate|]. split; [exact A|]. intros lo hi Hl. apply B; [assumption|discriminate].
Qed.

Example C20_case : index_of_longest [Rg 0 1; Rg 0 3; Rg 2 5] = 1%nat /\ index_of_shortest [Rg 0 3; Rg 0 1; Rg 4 5] = 1%nat.
Proof.
  unfold index_of_longest, index_of_shortest. cbn [longest_loop shortest_loop lt_inf]. unfold length_. cbn [start_ end_].
  split; rcases; reflexivity.
Qed.

Print Assumptions C17_normalize.
Print Assumptions C18_mod_diff_partial.
Print Assumptions C18_closest_refuted.
Print Assumptions C19_intersect.
Print Assumptions C19_union.
Print Assumptions C19_clamp.
Print Assumptions C19_clamp_to_closest.
Print Assumptions C20_values_in_range.
Print Assumptions C20_intersect_ranges.
Print Assumptions C20_index_of_longest.
Print Assumptions C20_index_of_shortest.
Print Assumptions C20_covers.
