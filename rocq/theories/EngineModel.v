(** Model of MotiveEngine (src/motive/engine.cpp, include/motive/engine.h).

    MotivatorTypes and factories are natural numbers.  Processor objects live on a
    heap, numbered in creation order; an object remembers the type it was created
    for, the factory that created it, its Priority() and whether it is still alive.
    What a processor does inside AdvanceFrame is in ProcessorModel.v; here the
    frame only records which objects were advanced.  Not modelled: benchmarks,
    version_, Processor() being called by a processor during AdvanceFrame. *)
From Verif Require Import Base.

Record object := { o_type : nat; o_factory : nat; o_alive : bool }.

(** engine.h:76-88; [functions] is the static registry function_map_. *)
Record engine := {
  functions : list (nat * nat);   (* function_map_: type -> factory *)
  mapped : list (nat * nat);      (* mapped_processors_: type -> object *)
  sorted : list nat;              (* sorted_processors_, in iteration order *)
  heap : list object }.

Definition engine_init := {| functions := []; mapped := []; sorted := []; heap := [] |}.

(** std::map::find *)
Fixpoint find_key (k : nat) (l : list (nat * nat)) : option nat :=
  match l with [] => None | (k', v) :: l' => if Nat.eqb k k' then Some v else find_key k l' end.

Section Engine.
  (** Priority() of the processors a factory creates (processor.h:154, constant per class). *)
  Variable prio : nat -> Z.

  (** engine.cpp:26-29 (RegisterProcessorFactory): std::map::insert keeps an existing entry. *)
  Definition register_factory (e : engine) (type factory : nat) : engine :=
    match find_key type (functions e) with
    | Some _ => e
    | None => {| functions := (type, factory) :: functions e; mapped := mapped e;
                 sorted := sorted e; heap := heap e |}
    end.

  (** processor->Priority(); [None]: the object has been destroyed. *)
  Definition priority (h : list object) (o : nat) : option Z :=
    x <- nth_error h o ;; if o_alive x then Some (prio (o_factory x)) else None.

  (** std::multiset::insert with engine.h:39-41 (operator<): after the elements
      that are not greater.  The search is linear here. *)
  Fixpoint multiset_insert (h : list object) (o : nat) (l : list nat) : option (list nat) :=
    match l with
    | [] => Some [o]
    | x :: l' => px <- priority h x ;; po <- priority h o ;;
                 if po <? px then Some (o :: l)
                 else r <- multiset_insert h o l' ;; Some (x :: r)
    end.

  (** engine.cpp:51-71 (Processor). *)
  Definition processor (e : engine) (type : nat) : option (engine * option nat) :=
    match find_key type (mapped e) with
    | Some o => Some (e, Some o)
    | None =>
        match find_key type (functions e) with
        | None => Some (e, None)
        | Some f =>
            let o := length (heap e) in
            let h := heap e ++ [{| o_type := type; o_factory := f; o_alive := true |}] in
            s <- multiset_insert h o (sorted e) ;;
            Some ({| functions := functions e; mapped := (type, o) :: mapped e; sorted := s; heap := h |}, Some o)
        end
    end.

  (** engine.cpp:73-85 (AdvanceFrame): the objects advanced, in order. *)
  Fixpoint advance (h : list object) (l : list nat) : option (list nat) :=
    match l with
    | [] => Some []
    | o :: l' => x <- nth_error h o ;; assert (o_alive x) ;; r <- advance h l' ;; Some (o :: r)
    end.

  Definition kill (h : list object) (o : nat) : option (list object) :=
    x <- nth_error h o ;;
    assert (o_alive x) ;;
    Some (firstn o h ++ {| o_type := o_type x; o_factory := o_factory x; o_alive := false |} :: skipn (S o) h).

  (** engine.cpp:35-48 (Reset): destroys what is in the map, clears the map, and
      leaves sorted_processors_ alone.  [None] when a factory is missing or an
      object is destroyed twice. *)
  Fixpoint destroy_all (e : engine) (m : list (nat * nat)) (h : list object) : option (list object) :=
    match m with
    | [] => Some h
    | (type, o) :: m' => _ <- find_key type (functions e) ;; h' <- kill h o ;; destroy_all e m' h'
    end.
  Definition reset (e : engine) : option engine :=
    h <- destroy_all e (mapped e) (heap e) ;;
    Some {| functions := functions e; mapped := []; sorted := sorted e; heap := h |}.

  Inductive eop := ERegister (type factory : nat) | EProcessor (type : nat) | EFrame | EReset.
  Inductive result := RNone | RProcessor (o : option nat) | RFrame (l : list nat).

  Definition estep (e : engine) (op : eop) : option (engine * result) :=
    match op with
    | ERegister t f => Some (register_factory e t f, RNone)
    | EProcessor t => r <- processor e t ;; Some (fst r, RProcessor (snd r))
    | EFrame => l <- advance (heap e) (sorted e) ;; Some (e, RFrame l)
    | EReset => e' <- reset e ;; Some (e', RNone)
    end.

  (** A history with what each call returned. *)
  Fixpoint erun (e : engine) (ops : list eop) : option (engine * list (eop * result)) :=
    match ops with
    | [] => Some (e, [])
    | op :: ops' => r <- estep e op ;; r' <- erun (fst r) ops' ;;
                    Some (fst r', (op, snd r) :: snd r')
    end.
End Engine.

(** ** Specification *)
(** The first factory registered for [type] in a history. *)
Fixpoint first_registered (type : nat) (tr : list (eop * result)) : option nat :=
  match tr with
  | [] => None
  | (ERegister t f, _) :: tr' => if Nat.eqb t type then Some f else first_registered type tr'
  | _ :: tr' => first_registered type tr'
  end.
