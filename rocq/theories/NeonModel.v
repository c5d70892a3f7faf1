(** Model of the ARM assembly src/motive/math/bulk_spline_evaluator_neon.s, and of how
    bulk_spline_evaluator.cpp calls it.

    The code is a list of instructions that is run on a state of core registers, SIMD
    registers and memory.  Simplifications.  Memory is made of words at multiples of 4; a
    word that is not mapped, or not aligned as an instruction asks, makes the access fail
    ([None]).  Core registers are numbers without bounds.  The content of a word is a float
    (a real or plus infinity), four bytes, or an integer; only the operations of the
    program on the kinds it uses them for have a result.  [rnd] is the rounding of the
    arithmetic, which is any function.  The multiply-and-add of NEON rounds twice.
    BulkSplineEvaluator never sets `optimization_` to NEON (bulk_spline_evaluator.h:42-45),
    so that only a build with MOTIVE_ASSEMBLY_TEST calls the assembly. *)
From Verif Require Import RBase.

(** The contents of 32 bits. *)
Inductive word := WFloat (x : option R) | WBytes (b0 b1 b2 b3 : Z) | WInt (n : Z).

(** [m a] is the word at address [a]; [d i] the two words of SIMD register d[i], and q[i] is
    d[2i] with d[2i+1]; [gt] what `gt` is about the last result that set the flags. *)
Record state := State { r : Z -> Z; d : Z -> word * word; m : Z -> option word; gt : bool }.
Definition upd {A} (f : Z -> A) (i : Z) (v : A) : Z -> A := fun j => if (j =? i)%Z then v else f j.
Definition set_r (i v : Z) (s : state) : state := State (upd (r s) i v) (d s) (m s) (gt s).
Definition set_d (i : Z) (v : word * word) (s : state) : state := State (r s) (upd (d s) i v) (m s) (gt s).
Definition set_gt (b : bool) (s : state) : state := State (r s) (d s) (m s) b.
Definition sp : Z := 13.
Definition lr : Z := 14.
Definition pc : Z := 15.

Definition load (a : Z) (s : state) : option word := assert (a mod 4 =? 0)%Z ;; m s a.
Definition store (a : Z) (v : word) (s : state) : option state :=
  assert (a mod 4 =? 0)%Z ;; w <- m s a ;; Some (State (r s) (d s) (upd (m s) a (Some v)) (gt s)).
Definition load2 (a : Z) (s : state) : option (word * word) := x <- load a s ;; y <- load (a + 4) s ;; Some (x, y).
Definition store2 (a : Z) (v : word * word) (s : state) : option state := t <- store a (fst v) s ;; store (a + 4) (snd v) t.

(** One lane of vmla.f32 and of vcgt.f32. *)
Definition mla (rnd : R -> R) (a x y : word) : option word :=
  match a, x, y with
  | WFloat (Some a), WFloat (Some x), WFloat (Some y) => Some (WFloat (Some (rnd (a + rnd (x * y)))))
  | _, _, _ => None
  end.
Definition cgt (x y : word) : option word :=
  match x, y with
  | WFloat x, WFloat y =>
      let b := match x, y with Some x, Some y => Rltb y x | None, Some _ => true | _, None => false end in
      Some (if b then WBytes 255 255 255 255 else WBytes 0 0 0 0)
  | _, _ => None
  end.
(** An operation on each of the two lanes of a d register. *)
Definition lanes2 (f : word -> word -> option word) (x y : word * word) : option (word * word) :=
  u <- f (fst x) (fst y) ;; v <- f (snd x) (snd y) ;; Some (u, v).
Definition lanes3 (f : word -> word -> word -> option word) (a x y : word * word) : option (word * word) :=
  u <- f (fst a) (fst x) (fst y) ;; v <- f (snd a) (snd x) (snd y) ;; Some (u, v).
(** vtbl.8 with a table of two d registers: bytes past its end are 0. *)
Definition bytes (w : word) : option (list Z) := match w with WBytes a b c e => Some [a; b; c; e] | _ => None end.
Definition bytes2 (v : word * word) : option (list Z) := x <- bytes (fst v) ;; y <- bytes (snd v) ;; Some (x ++ y).
Definition pick (table : list Z) (i : Z) : Z := match getz table i with Some b => b | None => 0%Z end.
Definition tbl (lo hi indices : word * word) : option (word * word) :=
  x <- bytes2 lo ;; y <- bytes2 hi ;; i <- bytes2 indices ;;
  match map (pick (x ++ y)) i with
  | [a0; a1; a2; a3; a4; a5; a6; a7] => Some (WBytes a0 a1 a2 a3, WBytes a4 a5 a6 a7)
  | _ => None
  end.

(** The instructions of the file. *)
Inductive instr :=
| Ldr (rd off : Z)                        (* ldr rd, [sp, #off] *)
| Vld1_all (q rn : Z)                     (* vld1.f32 {q[], q[]}, [rn] *)
| Adr (rd : Z)                            (* adr rd, kFirstByteTableIndices *)
| Vld1_8 (dd rn : Z)                      (* vld1.8 {d}, [rn] *)
| Subs (rd n : Z)                         (* subs rd, rd, #n *)
| Vld1 (q rn align : Z) (back : bool)     (* vld1.f32 {q}, [rn:align] or [rn:align]!; align in bytes *)
| Vst1 (q rn align : Z)                   (* vst1.f32 {q}, [rn:align]! *)
| Vmla (qd qn qm : Z)                     (* vmla.f32 qd, qn, qm *)
| Vcgt (qd qn qm : Z)                     (* vcgt.f32 qd, qn, qm *)
| Vtbl (dd dn dm : Z)                     (* vtbl.8 dd, {dn, dn+1}, dm *)
| Vst1_lane (dd rn : Z)                   (* vst1.32 {d[0]}, [rn:32]! *)
| Vld4 (d0 rn : Z)                        (* vld4.f32 {d0, d0+2, d0+4, d0+6}, [rn:256] *)
| Push (r1 r2 : Z) | Pop_return (r1 : Z)  (* push {r1, r2}; pop {r1, pc} *)
| Vpush (q : Z) | Vpop (q : Z)            (* vpush {q}, vpop {q} *)
| Add (rd rn n : Z) | Mov (rd n : Z)      (* add rd, rn, #n; mov rd, #n *)
| Vmov_zero (q : Z)                       (* vmov.f32 q, #0.0 *)
| Bgt (target : Z)                        (* bgt label, here a position in the list *)
| Bx_lr.                                  (* bx lr *)

Section Run.
Variables (rnd : R -> R) (table : Z).
Definition get_int (w : word) : option Z := match w with WInt n => Some n | _ => None end.
Definition exec (i : instr) (s : state) : option state :=
  match i with
  | Ldr rd off => w <- load (r s sp + off) s ;; n <- get_int w ;; Some (set_r rd n s)
  | Vld1_all q rn => w <- load (r s rn) s ;; Some (set_d (2 * q + 1) (w, w) (set_d (2 * q) (w, w) s))
  | Adr rd => Some (set_r rd table s)
  | Vld1_8 dd rn => v <- load2 (r s rn) s ;; Some (set_d dd v s)
  | Subs rd n => Some (set_gt (n <? r s rd)%Z (set_r rd (r s rd - n) s))
  | Vld1 q rn align back =>
      assert (r s rn mod align =? 0)%Z ;;
      lo <- load2 (r s rn) s ;; hi <- load2 (r s rn + 8) s ;;
      let t := set_d (2 * q + 1) hi (set_d (2 * q) lo s) in
      Some (if back then set_r rn (r s rn + 16) t else t)
  | Vst1 q rn align =>
      assert (r s rn mod align =? 0)%Z ;;
      t <- store2 (r s rn) (d s (2 * q)%Z) s ;; u <- store2 (r s rn + 8) (d s (2 * q + 1)%Z) t ;;
      Some (set_r rn (r s rn + 16) u)
  | Vmla a x y =>
      lo <- lanes3 (mla rnd) (d s (2 * a)%Z) (d s (2 * x)%Z) (d s (2 * y)%Z) ;;
      hi <- lanes3 (mla rnd) (d s (2 * a + 1)%Z) (d s (2 * x + 1)%Z) (d s (2 * y + 1)%Z) ;;
      Some (set_d (2 * a + 1) hi (set_d (2 * a) lo s))
  | Vcgt a x y =>
      lo <- lanes2 cgt (d s (2 * x)%Z) (d s (2 * y)%Z) ;; hi <- lanes2 cgt (d s (2 * x + 1)%Z) (d s (2 * y + 1)%Z) ;;
      Some (set_d (2 * a + 1) hi (set_d (2 * a) lo s))
  | Vtbl dd dn dm => v <- tbl (d s dn) (d s (dn + 1)%Z) (d s dm) ;; Some (set_d dd v s)
  | Vst1_lane dd rn => t <- store (r s rn) (fst (d s dd)) s ;; Some (set_r rn (r s rn + 4) t)
  | Vld4 d0 rn =>
      assert (r s rn mod 32 =? 0)%Z ;;
      a <- load2 (r s rn) s ;; b <- load2 (r s rn + 8) s ;; c <- load2 (r s rn + 16) s ;; e <- load2 (r s rn + 24) s ;;
      Some (set_d (d0 + 6) (snd b, snd e) (set_d (d0 + 4) (fst b, fst e) (set_d (d0 + 2) (snd a, snd c) (set_d d0 (fst a, fst c) s))))
  | Push r1 r2 => t <- store2 (r s sp - 8) (WInt (r s r1), WInt (r s r2)) s ;; Some (set_r sp (r s sp - 8) t)
  | Pop_return r1 => v <- load2 (r s sp) s ;; x <- get_int (fst v) ;; y <- get_int (snd v) ;; Some (set_r pc y (set_r sp (r s sp + 8) (set_r r1 x s)))
  | Vpush q => t <- store2 (r s sp - 16) (d s (2 * q)%Z) s ;; u <- store2 (r s sp - 8) (d s (2 * q + 1)%Z) t ;; Some (set_r sp (r s sp - 16) u)
  | Vpop q => lo <- load2 (r s sp) s ;; hi <- load2 (r s sp + 8) s ;; Some (set_r sp (r s sp + 16) (set_d (2 * q + 1) hi (set_d (2 * q) lo s)))
  | Add rd rn n => Some (set_r rd (r s rn + n) s)
  | Mov rd n => Some (set_r rd n s)
  | Vmov_zero q => Some (set_d (2 * q + 1) (WFloat (Some 0), WFloat (Some 0)) (set_d (2 * q) (WFloat (Some 0), WFloat (Some 0)) s))
  | Bgt _ => Some s
  | Bx_lr => Some (set_r pc (r s lr) s)
  end.

(** From instruction [at_] until the return; one unit of fuel per instruction. *)
Fixpoint run (fuel : nat) (code : list instr) (at_ : Z) (s : state) : option state :=
  match fuel with
  | O => None
  | S f =>
      i <- getz code at_ ;;
      t <- exec i s ;;
      match i with
      | Bgt target => run f code (if gt t then target else (at_ + 1)%Z) t
      | Bx_lr | Pop_return _ => Some t
      | _ => run f code (at_ + 1)%Z t
      end
  end.
End Run.

(** bulk_spline_evaluator_neon.s:36-97 (UpdateCubicXsAndGetMask_Neon); the loop starts at
    the sixth instruction. *)
Definition update_neon : list instr := [
  Ldr 4 0; Ldr 5 4; Vld1_all 12 0; Adr 12; Vld1_8 30 12;
  Subs 3 4; Vld1 8 4 16 false; Vld1 9 1 16 true; Vld1 11 2 16 true;
  Vmla 8 12 11; Vcgt 10 8 9; Vst1 8 4 16; Vtbl 20 20 30; Vst1_lane 20 5;
  Bgt 5; Bx_lr ].

(** bulk_spline_evaluator_neon.s:103-160 (EvaluateCubics_Neon) *)
Definition evaluate_neon : list instr := [
  Push 6 14; Vpush 6; Add 6 0 32; Mov 10 48; Mov 12 16; Vmov_zero 6;
  Subs 2 4; Vld4 16 0; Vld4 17 6; Vld1 12 1 4 true;
  Vmla 10 11 12; Vmla 9 10 12; Vmla 8 9 12; Vst1 8 3 16;
  Bgt 6; Vpop 6; Pop_return 6 ].

(** bulk_spline_evaluator_neon.s:19-31 (kFirstByteTableIndices) *)
Definition table_at (table : Z) (s : state) : Prop :=
  (table mod 4 = 0)%Z /\ m s table = Some (WBytes 0 4 8 12) /\ m s (table + 4)%Z = Some (WBytes 255 255 255 255).

(** The argument registers that a compiler sets for the declarations of
    bulk_spline_evaluator.cpp:27-35, by the procedure call standard: the first four
    arguments in r0 to r3, the others on the stack. *)
Definition called_update (delta_x x_ends num_xs xs masks : Z) (s : state) : Prop :=
  r s 0%Z = delta_x /\ r s 1%Z = x_ends /\ r s 2%Z = num_xs /\ r s 3%Z = xs /\ m s (r s sp) = Some (WInt masks).
Definition called_evaluate (curves xs y_ranges num_curves ys : Z) (s : state) : Prop :=
  r s 0%Z = curves /\ r s 1%Z = xs /\ r s 2%Z = y_ranges /\ r s 3%Z = num_curves /\ m s (r s sp) = Some (WInt ys).
(** The argument registers of the comments in the assembly
    (bulk_spline_evaluator_neon.s:37-52, 104-118). *)
Definition expects_update (delta_x x_ends playback_rates num_xs xs masks : Z) (s : state) : Prop :=
  r s 0%Z = delta_x /\ r s 1%Z = x_ends /\ r s 2%Z = playback_rates /\ r s 3%Z = num_xs /\ m s (r s sp) = Some (WInt xs) /\ m s (r s sp + 4)%Z = Some (WInt masks).
Definition expects_evaluate (cubics xs num_cubics ys : Z) (s : state) : Prop :=
  r s 0%Z = cubics /\ r s 1%Z = xs /\ r s 2%Z = num_cubics /\ r s 3%Z = ys.
