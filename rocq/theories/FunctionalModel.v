(* Model of the distribution functionals of interactions/four_particle/cpp/
   integral.cpp:119-228 and interactions/three_particle/cpp/integral.cpp:119-240.
   The two files differ only in the number of participants (4, 3); the model
   takes the participants as a list, so both are instances. Occupations are
   reals. std::runtime_error is Raise RuntimeError. *)
From Coq Require Import Reals.
From Verif Require Import Base.
Open Scope R_scope.

(* integral.h:56-70: the fields of reaction_t the functionals read: side
   (-1 left, 1 right) and specie.eta (1 fermion, -1 boson) *)
Record leg := mkLeg { side : Z; eta : R }.

(* the loop `for i < n` of F_A (130-155) and F_B (157-182): participants on the
   side `own` contribute f, the others 1 - eta f; skip_index is left out *)
Fixpoint F_loop (own skip : Z) (i : Z) (ls : list leg) (f : list R) (temp : R) : result R :=
  match ls, f with
  | l :: ls', x :: f' =>
      if (i =? skip)%Z then F_loop own skip (i + 1) ls' f' temp
      else if Rlt_dec x 0 then Raise RuntimeError
      else F_loop own skip (i + 1) ls' f' (temp * (if (side l =? own)%Z then x else 1 - eta l * x))
  | _, _ => Ok temp
  end.
(* integral.cpp:130-155 *)
Definition F_A (ls : list leg) (f : list R) (skip : Z) : result R := F_loop (-1) skip 0 ls f (-1).
(* integral.cpp:157-182 *)
Definition F_B (ls : list leg) (f : list R) (skip : Z) : result R := F_loop 1 skip 0 ls f 1.

Definition eta0 (ls : list leg) : R := match ls with l :: _ => eta l | [] => 0 end.
Definition f0 (f : list R) : R := match f with x :: _ => x | [] => 0 end.

(* integral.cpp:199-202 *)
Definition F_f (ls : list leg) (f : list R) : result R :=
  let* a := F_A ls f 0 in let* b := F_B ls f 0 in Ok (a - eta0 ls * b).
(* 204-207 *)
Definition F_1 (ls : list leg) (f : list R) : result R := F_B ls f 0.
(* 209-212 *)
Definition F_decay (ls : list leg) (f : list R) : result R := F_A ls f 0.
(* 214-217 *)
Definition F_creation (ls : list leg) (f : list R) : result R := F_B ls f (-1).
(* 219-222 *)
Definition F_f_vacuum_decay (ls : list leg) (f : list R) : result R := Ok (-1).
(* 224-227: f[3] (four particles) or f[2] (three particles): the last one *)
Definition F_1_vacuum_decay (ls : list leg) (f : list R) : result R := Ok (last f 0).

(* integral.h:28-37 *)
Inductive kind := Full | F1 | Ff | Full_vacuum | F1_vacuum | Ff_vacuum | Creation | Decay.

(* integral.cpp:327-347, the switch at the end of integrand_full (the common
   factor `temp` is left out); three_particle 352-372 is the same *)
Definition functional (k : kind) (ls : list leg) (f : list R) : result R :=
  match k with
  | Creation => F_creation ls f
  | Decay => F_decay ls f
  | F1_vacuum => F_1_vacuum_decay ls f
  | Ff_vacuum => F_f_vacuum_decay ls f
  | Full_vacuum => let* a := F_1_vacuum_decay ls f in let* b := F_f_vacuum_decay ls f in Ok (a + f0 f * b)
  | F1 => F_1 ls f
  | Ff => F_f ls f
  | Full => let* a := F_1 ls f in let* b := F_f ls f in Ok (a + f0 f * b)
  end.

(* interactions/four_particle/__init__.py:168-205 (three_particle 115-140): how
   the requested kind is turned into compiled integrals and what is returned,
   per grid point. I k is the compiled integral of kind k at the point, f the
   particle's own occupation there; the unit constant is left out, and so are
   the grid cut-off, interpolation and scaling steps in between.
   Pair a b: the tuple (a, b); One a: a single array. *)
Inductive output := Pair (a b : R) | One (a : R).
Definition integrate4 (k : kind) (fast_decay : bool) (f : R) (I : kind -> R) : output :=
  match k, fast_decay with
  | Full, false | Full_vacuum, false => Pair (I F1 + f * I Ff) (I Ff)
  | Decay, true | Ff_vacuum, true => Pair 0 (I k)
  | Creation, true | F1_vacuum, true => Pair (I k) 0
  | Ff, _ | Decay, _ | Ff_vacuum, _ => One (I k * f)
  | _, _ => One (I k)
  end.
Definition integrate3 (k : kind) (fast_decay : bool) (f : R) (I : kind -> R) : output :=
  match k, fast_decay with
  | Full, false | Full_vacuum, false => Pair (I Full) (I Ff)
  | Decay, true | Ff_vacuum, true => Pair 0 (I k)
  | Creation, true | F1_vacuum, true => Pair (I k) 0
  | Ff, _ | Decay, _ | Ff_vacuum, _ => One (I k * f)
  | _, _ => One (I k)
  end.
