(* Model of the first six columns of the table written for KAWANO
   (evolution.py:327-342): t, x, T, dT/dt, rho and H of the parameters after the
   step, with the fraction computed in the step. Conversion to the units of the
   columns is in TextModel. Floats are reals. *)
From Coq Require Import Reals.
From Verif Require Import Base EvolveModel ParamsModel.
Open Scope R_scope.

Record krow := mkkrow { k_t : R; k_x : R; k_T : R; k_dTdt : R; k_rho : option R; k_H : R }.
Definition kawano_row (logmode : bool) (fraction : R) (p : params) : krow :=
  mkkrow (pt p) (px p) (pT p) (dTdt logmode fraction (paT p) (pT p) (pa p) (pH p) (pm p)) (prho p) (pH p).
