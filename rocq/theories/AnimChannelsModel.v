(** Model of AnimData::PruneChannels (src/anim_pipeline/anim_data.cpp) over the real numbers.
    FlatTime is an int: subtractions that overflow are [None], as are failed asserts. *)
From Verif Require Import RBase CurveModel MatrixModel RigModel AnimDataModel.
Local Open Scope Z_scope.

(** anim_data.cpp:15-16 (kScaleXyzBitfield), 423-425: the operations are scale x, y and z in some order. *)
Definition xyz_bit (t : mtype) : Z := match t with ScaleX => 1 | ScaleY => 2 | ScaleZ => 4 | _ => 8 end.
Definition scale_xyz (a b c : mtype) : bool := Z.lor (xyz_bit a) (Z.lor (xyz_bit b) (xyz_bit c)) =? 7.
(** anim_data.cpp:437-446 (the loop of UniformScaleChannels), for lists of one length *)
Fixpoint nodes_match (tol angle : R) (n0 n1 n2 : list snode) : bool :=
  match n0, n1, n2 with
  | v0 :: r0, v1 :: r1, v2 :: r2 =>
      equal_nodes v0 v1 tol angle && equal_nodes v0 v2 tol angle && equal_nodes v1 v2 tol angle && nodes_match tol angle r0 r1 r2
  | _, _, _ => true
  end.
(** anim_data.cpp:413-449 (UniformScaleChannels) *)
Definition uniform_scale_channels (t : tolerances) (chs : list channel) (ch : Z) : bool :=
  match getz chs ch, getz chs (ch + 1), getz chs (ch + 2) with
  | Some c0, Some c1, Some c2 =>
      scale_xyz (ch_op c0) (ch_op c1) (ch_op c2) && (len (ch_nodes c0) =? len (ch_nodes c1)) && (len (ch_nodes c0) =? len (ch_nodes c2)) &&
      nodes_match (tl_scale t) (tl_angle t) (ch_nodes c0) (ch_nodes c1) (ch_nodes c2)
  | _, _, _ => false
  end.
(** anim_data.cpp:204-205: kScaleUniformly minus the operation; ids are bytes. *)
Definition to_uniform (op : mtype) : Z := match op with ScaleX => 3 | ScaleY => 2 | ScaleZ => 1 | _ => 0 end.
(** vector::erase of [n] elements from [i]. *)
Definition erase {A} (l : list A) (i n : Z) : list A := firstn (Z.to_nat i) l ++ skipn (Z.to_nat (i + n)) l.
(** anim_data.cpp:204-208 *)
Definition collapse_scale (chs : list channel) (ch : Z) : option (list channel) :=
  c <- getz chs ch ;;
  chs' <- setz chs ch (Channel ScaleUniformly ((ch_id c + to_uniform (ch_op c)) mod 256) (ch_nodes c)) ;;
  Some (erase chs' (ch + 1) 2).

Definition mtype_eqb (a b : mtype) : bool :=
  match a, b with
  | RotateX, RotateX | RotateY, RotateY | RotateZ, RotateZ | TranslateX, TranslateX | TranslateY, TranslateY | TranslateZ, TranslateZ
  | ScaleX, ScaleX | ScaleY, ScaleY | ScaleZ, ScaleZ | ScaleUniformly, ScaleUniformly
  | QuaternionW, QuaternionW | QuaternionX, QuaternionX | QuaternionY, QuaternionY | QuaternionZ, QuaternionZ => true
  | _, _ => false
  end.
(** anim_data.cpp:451-470 (SummableChannel): the loop over the channels after [ch]. *)
Fixpoint summable_loop (op : mtype) (l : list channel) (id : Z) : Z :=
  match l with
  | [] => -1
  | c :: r =>
      if mtype_eqb (ch_op c) op then id
      else if rotate_kind op then -1
      else if translate_kind op && negb (translate_kind (ch_op c)) then -1
      else if scale_kind op && negb (scale_kind (ch_op c)) then -1
      else summable_loop op r (id + 1)
  end.
Definition summable_channel (chs : list channel) (ch : Z) : option Z :=
  c <- getz chs ch ;; Some (summable_loop (ch_op c) (skipn (Z.to_nat (ch + 1)) chs) (ch + 1)).

(** anim_data.cpp:482-488 (the search of EvaluateNodes): the nodes before and after [time]. *)
Fixpoint find_after (pre : snode) (l : list snode) (time : Z) : option (snode * snode) :=
  match l with [] => None | b :: r => if time <=? sn_time b then Some (pre, b) else find_after b r time end.
(** anim_data.cpp:472-499 (EvaluateNodes): the value and the derivative. *)
Definition evaluate_nodes (n : list snode) (time : Z) : option (R * R) :=
  match n with
  | [] => None
  | a :: r =>
      let back := last r a in
      if time <? sn_time a then Some (sn_val a, 0%R)
      else if sn_time back <=? time then Some (sn_val back, 0%R)
      else
        pp <- find_after a r time ;;
        let '(pre, post) := pp in
        assert (sn_time pre <=? time) && (time <=? sn_time post) ;;
        total <- sub_int (sn_time post) (sn_time pre) ;; x <- sub_int time (sn_time pre) ;;
        let c := cubic_init (sn_val pre) (sn_der pre) (sn_val post) (sn_der post) (IZR total) in
        Some (keval c (IZR x), kderiv c (IZR x))
  end.
(** anim_data.cpp:501-513 (GetValueAtTime): [it] are the nodes from the iterator on; the
    result is the value, the derivative and the iterator after lines 548-553. *)
Definition value_at_time (n it : list snode) (time : Z) : option (R * R * list snode) :=
  match it with
  | x :: r => if sn_time x =? time then Some (sn_val x, sn_der x, r) else v <- evaluate_nodes n time ;; Some (fst v, snd v, it)
  | [] => v <- evaluate_nodes n time ;; Some (fst v, snd v, it)
  end.
(** anim_data.cpp:537-555 (the loop of SumChannels) *)
Fixpoint sum_loop (fuel : nat) (na nb ia ib sum : list snode) : option (list snode) :=
  match ia, ib with
  | [], [] => Some sum
  | _, _ =>
      match fuel with
      | O => None
      | S k =>
          let t := match ia with x :: _ => sn_time x | [] => int_max end in
          let time := match ib with y :: _ => Z.min t (sn_time y) | [] => t end in
          a <- value_at_time na ia time ;; b <- value_at_time nb ib time ;;
          let '(va, da, ia') := a in let '(vb, db, ib') := b in
          sum_loop k na nb ia' ib' (sum ++ [SNode time (va + vb) (da + db)])
      end
  end.
(** anim_data.cpp:515-558 (SumChannels): the nodes of the sum. *)
Definition sum_nodes (na nb : list snode) : option (list snode) :=
  let ia := if len na =? 1 then [] else na in
  let ib := if len nb =? 1 then [] else nb in
  let sum := match na, nb with [a], [b] => [SNode 0 (sn_val a + sn_val b) 0] | _, _ => [] end in
  sum_loop (length na + length nb) na nb ia ib sum.
Definition sum_channels (chs : list channel) (a b : Z) : option (list channel) :=
  ca <- getz chs a ;; cb <- getz chs b ;; n <- sum_nodes (ch_nodes ca) (ch_nodes cb) ;; setz chs a (Channel (ch_op ca) (ch_id ca) n).

(** anim_data.cpp:185-232 (the body of the loop of PruneChannels) *)
Definition prune_channel (t : tolerances) (no_uniform_scale : bool) (chs : list channel) (ch : Z) : option (list channel) :=
  c1 <- (if negb no_uniform_scale && uniform_scale_channels t chs ch then collapse_scale chs ch else Some chs) ;;
  s <- summable_channel c1 ch ;;
  c2 <- (if 0 <=? s then l <- sum_channels c1 ch s ;; Some (erase l s 1) else Some c1) ;;
  c <- getz c2 ch ;;
  match ch_nodes c with
  | [x] => Some (if is_default t (ch_op c) (sn_val x) then erase c2 ch 1 else c2)
  | _ => Some c2
  end.
(** The loop from channel [k - 1] down to the first. *)
Fixpoint prune_loop (t : tolerances) (no_uniform_scale : bool) (k : nat) (chs : list channel) : option (list channel) :=
  match k with O => Some chs | S j => chs' <- prune_channel t no_uniform_scale chs (Z.of_nat j) ;; prune_loop t no_uniform_scale j chs' end.
(** anim_data.cpp:235 (std::sort).  The order of channels with one id is not specified; here it is kept. *)
Fixpoint insert_channel (c : channel) (l : list channel) : list channel :=
  match l with [] => [c] | x :: r => if ch_id c <=? ch_id x then c :: l else x :: insert_channel c r end.
Definition sort_channels (l : list channel) : list channel := fold_right insert_channel [] l.
(** anim_data.cpp:181-237 (PruneChannels) *)
Definition prune_bone (t : tolerances) (no_uniform_scale : bool) (b : bone) : option bone :=
  chs <- prune_loop t no_uniform_scale (length (bn_channels b)) (bn_channels b) ;; Some (Bone (bn_name b) (bn_parent b) (sort_channels chs)).
Definition prune_channels (d : anim_data) (no_uniform_scale : bool) : option anim_data :=
  bones <- map_opt (prune_bone (ad_tol d) no_uniform_scale) (ad_bones d) ;; Some (with_bones d bones).
