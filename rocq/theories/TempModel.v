(* Model of the evolution of aT over the steps of evolve(): evolution.py:108-160
   (save_params before the loop, make_step and save in it), make_step 182-197,
   the last lines of integrand 296-303, and the step of x in common/__init__.py
   (infer 134-150, update 165-185). The sum of numerators over the sum of
   denominators is a function phi of x and aT, as it is while every species is
   in equilibrium; the temperature is not compared with T_final (the number of
   steps is n). Floats are reals. *)
From Coq Require Import Reals.
From Verif Require Import Base IntegratorsModel.
Open Scope R_scope.

(* evolution.py:296-301: self.fraction *)
Definition rate (logmode : bool) (phi : R -> R -> R) (x aT : R) : R := if logmode then x * phi x aT else phi x aT.
(* evolution.py:194: x += dx; params: dx is x * dy (with h = dy) or h itself *)
Definition next_x (logmode : bool) (h x : R) : R := if logmode then x + x * h else x + h.
(* n steps of the loop: x, aT and the recorded column 'fraction'. Before the
   first step save_params has recorded the initial fraction 0 (line 132). *)
Fixpoint temperature_run (logmode : bool) (phi : R -> R -> R) (h x0 aT0 : R) (n : nat) : result (R * R * list R) :=
  match n with
  | O => Ok (x0, aT0, [0])
  | S n' =>
      let* s := temperature_run logmode phi h x0 aT0 n' in
      let '(x, aT, data) := s in
      let f := rate logmode phi x aT in
      let* d := make_step_increment data f h in
      Ok (next_x logmode h x, aT + d, data ++ [f])
  end.
