(** What motivators should look like to their owner: a table from motivator to
    (processor, per-dimension data).  No indices, no allocator. *)
From Verif Require Import Base IndexAllocatorModel IndexAllocatorSpec ProcessorModel.

Section Spec.
  Context {D : Type} (cls : nat -> pclass).

  Definition table := nat -> option (nat * list D).

  (** The effect each call should have. *)
  Definition astep (t : table) (o : mop D) : table :=
    match o with
    | OInit h pid dims init =>
        if 0 <? dims
        then upd t h (Some (pid, map (fun k => init (Z.of_nat k)) (seq 0 (Z.to_nat dims))))
        else t
    | OInvalidate h => upd t h None
    | OMoveConstruct dst src =>
        match t dst with None => upd (upd t src None) dst (t src) | Some _ => t end
    | OMoveAssign dst src =>
        if Nat.eqb dst src then upd t dst None else upd (upd t src None) dst (t src)
    | OClone dst src =>
        if Nat.eqb dst src then upd t dst None
        else match t src with
             | Some (pid, l) => if k_clone (cls pid) then upd t dst (t src) else upd t dst None
             | None => upd t dst None
             end
    | OFrame pid f => fun h =>
        match t h with
        | Some (q, l) => Some (q, if Nat.eqb q pid then map f l else l)
        | None => None
        end
    | OWrite h k v =>
        match t h with
        | Some (q, l) => match setz l k v with Some l' => upd t h (Some (q, l')) | None => t end
        | None => t
        end
    | ODestroy pid => fun h =>
        match t h with
        | Some (q, l) => if Nat.eqb q pid then None else Some (q, l)
        | None => None
        end
    end.

  Fixpoint arun (t : table) (ops : list (mop D)) : table :=
    match ops with [] => t | o :: ops' => arun (astep t o) ops' end.

  (** The motivators a call names. *)
  Definition mentions (o : mop D) (h : nat) : Prop :=
    match o with
    | OInit h' _ _ _ | OInvalidate h' | OWrite h' _ _ => h = h'
    | OMoveConstruct d s | OMoveAssign d s | OClone d s => h = d \/ h = s
    | OFrame _ _ | ODestroy _ => False
    end.

  (** What a motivator shows through its API: nothing when !Valid(); otherwise its
      processor and the data at its Dimensions() indices. *)
  Definition view (s : sys D) (h : nat) : option (nat * list D) :=
    match mots s h with
    | None => None
    | Some (pid, i) =>
        p <- procs s pid ;; n <- dimensions p i ;; Some (pid, slice (p_cells p) i n)
    end.

  (** Motivator::Dimensions(), 0 when not valid. *)
  Definition dims_of (s : sys D) (h : nat) : Z :=
    match view s h with Some (_, l) => len l | None => 0 end.
End Spec.
