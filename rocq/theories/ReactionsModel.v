(* Model of reaction_type, interaction_filter, particle_filter and
   particle_orderer (common/utils.py:125-166) and of the `kind` check
   (interactions/__init__.py:94-103). *)
From Verif Require Import Base.

(* Particle species: only the attributes these functions read. Masses are
   finite floats, i.e. integers in a small enough common unit. `pid` is the
   Python object identity. particles/__init__.py:49-70, 103-104 *)
Record specie := mkspecie { pid : nat; pname : string; pmass : Z }.

(* IntegralItem.side / .specie, interactions/__init__.py:21; side is -1 (left)
   or 1 (right) *)
Record ritem := mkitem { side : Z; rspecie : specie }.
Definition reaction := list ritem.

Definition sumsides (r : reaction) : Z := fold_right Z.add 0%Z (map side r).

(* utils.py:125-142 *)
Definition is_CREATION (r : reaction) : bool := existsb (Z.eqb (sumsides r)) [-1; -2]%Z.
Definition is_SCATTERING (r : reaction) : bool := existsb (Z.eqb (sumsides r)) [0]%Z.
Definition is_DECAY (r : reaction) : bool := existsb (Z.eqb (sumsides r)) [1; 2]%Z.

(* utils.py:145-155; an integral is represented by its reaction, an interaction
   by its list of integrals. reaction_type=[None] by default: None equals no
   integer, so the excluded sums are a list of Z. reaction[0] on an empty
   reaction raises IndexError. *)
Definition mem_name (n : string) (names : list string) : bool := existsb (String.eqb n) names.
Definition keep_first (names : list string) (sums : list Z) (r : reaction) : result bool :=
  match r with
  | [] => Raise IndexError
  | it :: _ => Ok (negb (mem_name (pname (rspecie it)) names) && negb (existsb (Z.eqb (sumsides r)) sums))
  end.
Definition keep_all (names : list string) (sums : list Z) (r : reaction) : bool :=
  forallb (fun it => negb (mem_name (pname (rspecie it)) names)) r && negb (existsb (Z.eqb (sumsides r)) sums).

Fixpoint rfilter {A} (f : A -> result bool) (l : list A) : result (list A) :=
  match l with
  | [] => Ok []
  | x :: t => let* b := f x in let* r := rfilter f t in Ok (if b then x :: r else r)
  end.
Fixpoint rmapl {A B} (f : A -> result B) (l : list A) : result (list B) :=
  match l with
  | [] => Ok []
  | x :: t => let* b := f x in let* r := rmapl f t in Ok (b :: r)
  end.

Definition interaction_filter (names : list string) (inters : list (list reaction))
           (first_only : bool) (sums : list Z) : result (list (list reaction)) :=
  if first_only then rmapl (rfilter (keep_first names sums)) inters
  else Ok (map (filter (keep_all names sums)) inters).

(* utils.py:158-160 *)
Definition particle_filter (names : list string) (ps : list specie) : list specie :=
  filter (fun p => negb (mem_name (pname p) names)) ps.

(* The comparison used by sorted() on the (mass, particle) tuples of
   utils.py:163-166: masses first; for equal masses the particle objects are
   compared: identical objects are equal, otherwise `a < b` falls back to the
   reflected b.__gt__(a), i.e. b.name > a.name (particles/__init__.py:103). *)
Definition tuple_lt (a b : specie) : bool :=
  if (pmass a =? pmass b)%Z then
    if pid a =? pid b then false else String.ltb (pname a) (pname b)
  else (pmass a <? pmass b)%Z.

(* Python's sorted(..., reverse=True) is a stable descending sort; modelled as
   stable insertion: x goes before the first element that is smaller than x. *)
Fixpoint insert_desc (x : specie) (l : list specie) : list specie :=
  match l with
  | [] => [x]
  | y :: t => if tuple_lt x y then y :: insert_desc x t else x :: y :: t
  end.
Definition particle_orderer (ps : list specie) : list specie := fold_right insert_desc [] ps.

(* interactions/__init__.py:94-103; enum values of integral.h; a value passed as
   `kind` is None, one of the enum members, or anything else. *)
Inductive kindv := KNone | KEnum (n : nat) | KOther.
Definition kind_accepted (k : kindv) : result nat :=
  match k with
  | KNone => Ok 0                                (* CollisionIntegralKind.Full *)
  | KEnum n => if existsb (Nat.eqb n) [6; 7; 1; 2; 4; 5; 0; 3] then Ok n else Raise ValueError
  | KOther => Raise ValueError
  end.
