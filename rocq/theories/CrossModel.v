(* Model of interactions/__init__.py (crossing and deduplication) and of the
   matrix elements of interactions/four_particle/__init__.py:16-84 and
   interactions/three_particle/__init__.py:14-38. *)
From Coq Require Import Reals.
From Verif Require Import Base.

(* The attributes of a species read here. `sid` is the Python object identity
   (particles define neither __eq__ nor __hash__); masses are finite floats,
   i.e. integers in a small enough unit, and their sums are exact. *)
Record specie := mkSpecie { sid : nat; sname : string; smass : Z; majorana : bool }.
(* IntegralItem, 21 *)
Record item := mkItem { iside : Z; ispecie : specie; anti : bool; index : nat; crossed : bool }.

(* 119-125 *)
Definition cross_particle (it : item) : item :=
  mkItem (- iside it) (ispecie it) (if majorana (ispecie it) then false else negb (anti it)) (index it) (negb (crossed it)).

(* enumerate(zip(ps, flags), start) *)
Fixpoint items_from (sd : Z) (start : nat) (ps : list specie) (flags : list bool) : list item :=
  match ps, flags with
  | p :: ps', a :: flags' => mkItem sd p a start false :: items_from sd (S start) ps' flags'
  | _, _ => []
  end.
(* the argument of itertools.permutations, 127-146 *)
Definition base_items (particles : list specie * list specie) (antiparticles : list bool * list bool) : list item :=
  items_from (-1) 0 (fst particles) (fst antiparticles) ++
  items_from 1 (length (fst particles)) (snd particles) (snd antiparticles).

(* itertools.permutations: tuples in lexicographic order of positions *)
Fixpoint selects {A} (l : list A) : list (A * list A) :=
  match l with
  | [] => []
  | x :: t => (x, t) :: map (fun '(y, r) => (y, x :: r)) (selects t)
  end.
Fixpoint perms_n {A} (n : nat) (l : list A) : list (list A) :=
  match n with
  | O => [[]]
  | S n' => flat_map (fun '(x, r) => map (cons x) (perms_n n' r)) (selects l)
  end.
Definition permutations {A} (l : list A) : list (list A) := perms_n (length l) l.

(* 182-187 *)
Definition cross_at (i j : nat) (it : item) : item :=
  if ((0 <? iside it)%Z && (j <=? i))%nat%bool || ((iside it <? 0)%Z && (i <? j)%nat) then cross_particle it else it.
Fixpoint arrange_from (i j : nat) (perm : list item) : list item :=
  match perm with [] => [] | it :: t => cross_at i j it :: arrange_from i (S j) t end.
Definition arrange (i : nat) (perm : list item) : list item := arrange_from i 0 perm.

(* Tuple comparison of IntegralItems: the first differing field decides. Species
   are compared by identity; `a < b` of two different ones falls back to
   b.__gt__(a), i.e. b.name > a.name (particles/__init__.py:103). *)
Definition bool_ltb (a b : bool) : bool := negb a && b.
Definition item_ltb (a b : item) : bool :=
  if negb (iside a =? iside b)%Z then (iside a <? iside b)%Z
  else if negb (sid (ispecie a) =? sid (ispecie b)) then String.ltb (sname (ispecie a)) (sname (ispecie b))
  else if negb (Bool.eqb (anti a) (anti b)) then bool_ltb (anti a) (anti b)
  else if negb (index a =? index b) then index a <? index b
  else bool_ltb (crossed a) (crossed b).
(* sorted(): a stable ascending sort, modelled as insertion *)
Fixpoint insert_asc (x : item) (l : list item) : list item :=
  match l with [] => [x] | y :: t => if item_ltb y x then y :: insert_asc x t else x :: y :: t end.
Definition sorted (l : list item) : list item := fold_right insert_asc [] l.

Definition mass_sum (l : list item) : Z := fold_right Z.add 0%Z (map (fun it => smass (ispecie it)) l).
(* 199-203 *)
Definition impossible (lhs rhs : list item) : bool :=
  match lhs with [x] => (smass (ispecie x) <=? mass_sum rhs)%Z | _ => false end ||
  match rhs with [x] => (smass (ispecie x) <=? mass_sum lhs)%Z | _ => false end.

(* 189-208: the reaction of one permutation and arrow position; None: `continue` *)
Definition candidate (perm : list item) (i : nat) : result (option (list item)) :=
  let r := arrange i perm in
  let lhs := filter (fun it => (iside it =? -1)%Z) r in
  let rhs := sorted (filter (fun it => (iside it =? 1)%Z) r) in
  match lhs with
  | [] => Raise IndexError
  | h :: t =>
      let lhs := h :: sorted t in
      if anti h then Ok None
      else if impossible lhs rhs then Ok None
      else Ok (Some (lhs ++ rhs))
  end.

Definition item_eqb (a b : item) : bool :=
  (iside a =? iside b)%Z && (sid (ispecie a) =? sid (ispecie b)) && Bool.eqb (anti a) (anti b) &&
  (index a =? index b) && Bool.eqb (crossed a) (crossed b).
Fixpoint key_eqb (a b : list item) : bool :=
  match a, b with
  | [], [] => true
  | x :: a', y :: b' => item_eqb x y && key_eqb a' b'
  | _, _ => false
  end.
(* 206-208: `reactions` in insertion order *)
Definition remember (reactions : list (list item)) (r : list item) : list (list item) :=
  if existsb (key_eqb r) reactions then reactions else reactions ++ [r].

(* 148-210 *)
Definition reactions_map (particles : list specie * list specie) (antiparticles : list bool * list bool) : result (list (list item)) :=
  let n := length (fst particles) + length (snd particles) in
  rfold (fun reactions perm =>
    rfold (fun reactions i =>
      let* c := candidate perm i in
      Ok (match c with None => reactions | Some r => remember reactions r end))
    reactions (seq 0 (n - 1)))
  [] (permutations (base_items particles antiparticles)).

(* Matrix elements. FourParticleM: four_particle/__init__.py:16-84; `order` is a
   tuple of non-negative indices. ThreeParticleM: three_particle/__init__.py:14-38 *)
Inductive mel :=
| M4 (order : list nat) (K1 K2 K : R)
| M3 (K : R).
Fixpoint ninsert (x : nat) (l : list nat) : list nat :=
  match l with [] => [x] | y :: t => if y <? x then y :: ninsert x t else x :: y :: t end.
Definition nsorted (l : list nat) : list nat := fold_right ninsert [] l.
(* __setattr__ 57-61 *)
Definition store_order (o : list nat) : list nat := nsorted (firstn 2 o) ++ nsorted (skipn 2 o).
(* __init__ 33-40; None: the attribute is not given and the class default
   (0, 1, 2, 3) is read *)
Fixpoint has_dup (l : list nat) : bool :=
  match l with [] => false | x :: t => existsb (Nat.eqb x) t || has_dup t end.
Definition new_M4 (order : option (list nat)) (K1 K2 K : R) : result mel :=
  let o := match order with Some o => store_order o | None => [0; 1; 2; 3] end in
  if has_dup o then Raise GenericException else Ok (M4 o K1 K2 K).

(* apply_order 75-80, called at interactions/__init__.py:219-222. `map` is built
   from the enumeration of the reaction: a later duplicate wins. *)
Fixpoint pos_of (v : nat) (j : nat) (r : list item) (found : option nat) : option nat :=
  match r with [] => found | it :: t => pos_of v (S j) t (if index it =? v then Some j else found) end.
Fixpoint map_order (r : list item) (o : list nat) : result (list nat) :=
  match o with
  | [] => Ok []
  | v :: t => match pos_of v 0 r None with
              | None => Raise KeyError
              | Some j => let* l := map_order r t in Ok (j :: l)
              end
  end.
Definition is_crossed (r : list item) (j : nat) : bool := match nth_error r j with Some it => crossed it | None => false end.
Definition apply_order (r : list item) (M : mel) : result mel :=
  match M with
  | M3 K => Ok (M3 K)
  | M4 o K1 K2 K =>
      let* o' := map_order r o in
      match o' with
      | a :: b :: _ => Ok (M4 (store_order o') K1 (if xorb (is_crossed r a) (is_crossed r b) then (K2 * -1)%R else K2) K)
      | _ => Raise IndexError
      end
  end.

(* the collision integral objects *)
Record integral := mkIntegral { particle : specie; ireaction : list item; Ms : list mel }.

(* __iadd__ (42-45; three_particle 28-30). A FourParticleM += a ThreeParticleM
   reads M.K1. *)
Definition iadd (old new : mel) : result mel :=
  match old, new with
  | M4 o K1 K2 K, M4 _ K1' K2' _ => Ok (M4 o (K1 + K1')%R (K2 + K2')%R K)
  | M4 _ _ _ _, M3 _ => Raise AttributeError
  | M3 K, M4 _ _ _ K' => Ok (M3 (K + K')%R)
  | M3 K, M3 K' => Ok (M3 (K + K')%R)
  end.
Definition K_of (M : mel) : R := match M with M4 _ _ _ K => K | M3 K => K end.
Fixpoint neqb (a b : list nat) : bool :=
  match a, b with [], [] => true | x :: a', y :: b' => (x =? y) && neqb a' b' | _, _ => false end.
(* stackable 82-84 *)
Definition stackable (old new : mel) : result bool :=
  match old, new with
  | M4 o _ K2 _, M4 o' _ K2' _ =>
      Ok (neqb o o' ||
          (neqb (skipn 2 o ++ firstn 2 o) o' &&
           (if Req_EM_T K2 K2' then if Req_EM_T K2' 0 then true else false else false)))
  | _, _ => Raise AttributeError
  end.
(* 268-278: the first old matrix element taking the new one; None: not reduced *)
Fixpoint reduce (olds : list mel) (new : mel) : result (option (list mel)) :=
  match olds with
  | [] => Ok None
  | old :: t =>
      if Req_EM_T (K_of old) 0 then
        let* b := stackable old new in
        if b then let* s := iadd old new in Ok (Some (s :: t))
        else let* r := reduce t new in Ok (option_map (cons old) r)
      else let* s := iadd old new in Ok (Some (s :: t))
  end.
(* 266-284 *)
Definition merge_step (acc : list mel * list mel) (new : mel) : result (list mel * list mel) :=
  let '(olds, extra) := acc in
  let* r := reduce olds new in
  Ok (match r with Some olds' => (olds', extra) | None => (olds, extra ++ [new]) end).
Definition merge_Ms (olds news : list mel) : result (list mel) :=
  let* r := rfold merge_step (olds, []) news in Ok (fst r ++ snd r).

(* Counter equality of the species on a side, 243-247 *)
Definition species_on (sd : Z) (r : list item) : list nat :=
  map (fun it => sid (ispecie it)) (filter (fun it => (iside it =? sd)%Z) r).
Definition counter_eqb (a b : list nat) : bool :=
  forallb (fun x => count_occ Nat.eq_dec a x =? count_occ Nat.eq_dec b x) (a ++ b).
(* 256 *)
Definition same_integral (new old : integral) : bool :=
  (sid (particle new) =? sid (particle old)) &&
  (counter_eqb (species_on (-1) (ireaction new)) (species_on (-1) (ireaction old)) &&
   counter_eqb (species_on 1 (ireaction new)) (species_on 1 (ireaction old))).
(* append 249-284: merge into the first similar integral *)
Fixpoint append (new : integral) (l : list integral) : result (list integral) :=
  match l with
  | [] => Ok [new]
  | old :: t =>
      if same_integral new old then
        let* m := merge_Ms (Ms old) (Ms new) in Ok (mkIntegral (particle old) (ireaction old) m :: t)
      else let* r := append new t in Ok (old :: r)
  end.
(* 238-241 *)
Definition deduplicate (l : list integral) : result (list integral) := rfold (fun acc i => append i acc) [] l.

Fixpoint traverse {A B} (f : A -> result B) (l : list A) : result (list B) :=
  match l with
  | [] => Ok []
  | x :: t => let* b := f x in let* r := traverse f t in Ok (b :: r)
  end.
(* 105-117, 212-231. deepcopy gives every reaction its own matrix elements. *)
Definition init_integral (Ms : list mel) (r : list item) : result (list integral) :=
  match filter (fun it => (iside it =? -1)%Z) r with
  | [] => Raise IndexError
  | h :: _ =>
      if anti h then Ok [] else
      let* ms := traverse (apply_order r) Ms in Ok [mkIntegral (ispecie h) r ms]
  end.
Definition cross_generating (particles : list specie * list specie) (antiparticles : list bool * list bool) (Ms : list mel) : result (list integral) :=
  let* rs := reactions_map particles antiparticles in
  let* is := traverse (init_integral Ms) rs in
  deduplicate (concat is).
(* Interaction.__init__, 36-38. The attribute `integrals` is read before it is
   ever set on the instance, so the lookup finds the class attribute: None in
   Interaction itself (34), whatever a subclass puts there otherwise. Iterating
   None is a TypeError. *)
Definition interaction_init (class_integrals : option (list integral)) (integrals : option (list integral)) : result (list integral) :=
  match class_integrals with
  | None => Raise TypeError
  | Some l => deduplicate l
  end.
