(* Model of the weak rates (kawano.py:16-149) and of the neutron freeze-out
   monitor (semianalytic.py). Floats are reals. *)
From Coq Require Import Reals.
From Verif Require Import Base IntegratorsModel ParamsModel EvolveModel.
Open Scope R_scope.

(* kawano.py:18-20 with the masses of library/SM.py:73, 82, 314 *)
Definition qnp : R := 939565378 / 1000000 * MeV - 938272046 / 1000000 * MeV.
Definition m_e : R := 511 / 1000 * MeV.
(* common/__init__.py:76 *)
Definition rate_normalization : R := 175426 / 10000 / MeV ^ 5.

(* what the module reads from the two particles set by init_kawano (28-30):
   electron.distribution, neutrino.distribution, neutrino.grid.MIN_MOMENTUM,
   MAX_MOMENTUM and neutrino.params.a *)
Record kparts := mkKparts { fe : R -> R; fnu : R -> R; ymin : R; ymax : R; kpa : R }.

(* 60-125: the common shape; E_e is the conformal energy of the electron, occ
   the statistical factors *)
Definition rate_shape (a E_e y : R) (occ : R -> R) : R :=
  if Rlt_dec E_e (m_e * a) then 0
  else let y_e := sqrt (E_e ^ 2 - (m_e * a) ^ 2) in y ^ 2 * y_e * E_e * occ y_e.
(* 60-68 *)
Definition rate1 (k : kparts) (a y : R) : R := rate_shape a (qnp * a + y) y (fun ye => (1 - fe k ye) * fnu k y).
(* 71-79 *)
Definition rate2 (k : kparts) (a y : R) : R := rate_shape a (qnp * a + y) y (fun ye => fe k ye * (1 - fnu k y)).
(* 82-91 *)
Definition rate3 (k : kparts) (a y : R) : R := rate_shape a (qnp * a - y) y (fun ye => (1 - fe k ye) * (1 - fnu k y)).
(* 94-102 *)
Definition rate4 (k : kparts) (a y : R) : R := rate_shape a (qnp * a - y) y (fun ye => fe k ye * fnu k y).
(* 105-113 *)
Definition rate5 (k : kparts) (a y : R) : R := rate_shape a (- qnp * a + y) y (fun ye => fe k ye * (1 - fnu k y)).
(* 116-125 *)
Definition rate6 (k : kparts) (a y : R) : R := rate_shape a (- qnp * a + y) y (fun ye => (1 - fe k ye) * fnu k y).

(* 128-149. Before init_kawano the module variable is None: AttributeError. *)
Definition channel (q : rule) (k : kparts) (f : R -> R) (lo hi : R) : R :=
  if Rlt_dec lo hi then rate_normalization / kpa k ^ 5 * gaussian q f lo hi else 0.
Definition baryonic_rates (q : rule) (parts : option kparts) (a : R) : result (list R) :=
  match parts with
  | None => Raise AttributeError
  | Some k => Ok [ channel q k (rate1 k a) (ymin k) (ymax k);
                   channel q k (rate2 k a) (ymin k) (ymax k);
                   channel q k (rate3 k a) (ymin k) ((qnp - m_e) * a);
                   channel q k (rate4 k a) (ymin k) ((qnp - m_e) * a);
                   channel q k (rate5 k a) ((qnp + m_e) * a) (ymax k);
                   channel q k (rate6 k a) ((qnp + m_e) * a) (ymax k) ]
  end.

(* ---- semianalytic.py ---- *)
(* 4, 37 *)
Definition T_BBN : R := 65 / 1000 * MeV.
(* common/__init__.py:29 *)
Definition second : R := 10 ^ 22 / (6582119 / 1000000) / MeV.
Definition neutron_lifetime : R := 8857 / 10 * second.

(* the attributes the monitor sets on the universe: (T, t) of the copied
   parameters; the tuple BBN_estimates *)
Record monitor := mkMon { ndec : option (R * R); deut : option (R * R); est : option (R * R * R) }.
(* one call: the current params (T, t) and the rows of universe.kawano_data *)
Record snapshot := mkSnap { snT : R; snt : R; rows : list (list R) }.

(* numpy dtype subscript: an integer, a field name or a list of names; anything
   else, in particular a slice, raises TypeError *)
Inductive dkey := DInt (z : Z) | DName (n : string) | DNames (l : list string) | DSlice (from : Z).
Definition dtype_key_ok (k : dkey) : bool := match k with DSlice _ => false | _ => true end.
(* 11-14: `universe.kawano_data.data.dtype[-6:]` *)
Definition read_rates (row : list R) : result (list R) :=
  if dtype_key_ok (DSlice (-6)) then Ok (skipn (length row - 6) row) else Raise TypeError.
(* what those lines are meant to read: the last six columns *)
Definition read_intended (row : list R) : result (list R) := Ok (skipn (length row - 6) row).

Fixpoint evens (l : list R) : R := match l with [] => 0 | x :: r => x + odds r end
with odds (l : list R) : R := match l with [] => 0 | _ :: r => evens r end.
(* numpy division *)
Definition xdiv (n d : R) : xr :=
  if Req_EM_T d 0 then (if Req_EM_T n 0 then NaN else if Rlt_dec 0 n then PInf else NInf) else Fin (n / d).
Definition out_of_balance (x : xr) : bool :=
  match x with
  | Fin r => (if Rlt_dec 10 r then true else false) || (if Rlt_dec r (1 / 10) then true else false)
  | PInf | NInf => true
  | NaN => false
  end.

(* 7-45; `read` is the way the rates are read *)
Definition step_monitor (read : list R -> result (list R)) (s : snapshot) (m : monitor) : result monitor :=
  let* m1 :=
    match ndec m, rev (rows s) with
    | None, row :: _ =>
        let* rates := read row in
        Ok (if out_of_balance (xdiv (evens rates) (odds rates)) then mkMon (Some (snT s, snt s)) (deut m) (est m) else m)
    | _, _ => Ok m
    end in
  let m2 := match deut m1 with
            | None => if Rle_dec (snT s) T_BBN then mkMon (ndec m1) (Some (snT s, snt s)) (est m1) else m1
            | Some _ => m1
            end in
  Ok match ndec m2, deut m2, est m2 with
     | Some (nT, nt), Some (_, dt), None =>
         let decay := dt - nt in
         let np := exp (- qnp / nT) * exp (- decay / neutron_lifetime) in
         mkMon (ndec m2) (deut m2) (Some (decay, np, 2 * np / (1 + np)))
     | _, _, _ => m2
     end.
Definition monitor_run (read : list R -> result (list R)) (ss : list snapshot) (m : monitor) : result monitor :=
  rfold (fun m s => step_monitor read s m) m ss.
