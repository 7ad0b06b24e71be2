(* What the units of numericalunits should be: SI values and dimensions, SI
   prefixes, relations between the constants. Independent of the order in
   which the module derives one unit from another. *)
From Coq Require Import Reals QArith List String ZArith.
From Verif Require Import NumUnitsModel.
Import ListNotations.
Local Open Scope string_scope.

(* exponents of metre, kilogram, second, coulomb, kelvin *)
Record dim := mkdim { d_m : Z; d_kg : Z; d_s : Z; d_C : Z; d_K : Z }.

Local Open Scope R_scope.
Definition dval (b : bases) (d : dim) : R :=
  powerRZ (b_m b) (d_m d) * powerRZ (b_kg b) (d_kg d) * powerRZ (b_s b) (d_s d) *
  powerRZ (b_C b) (d_C d) * powerRZ (b_K b) (d_K d).
Definition bpos (b : bases) := 0 < b_m b /\ 0 < b_kg b /\ 0 < b_s b /\ 0 < b_C b /\ 0 < b_K b.

Record row := mkrow { r_name : string; r_q : Q; r_pi : Z; r_dim : dim }.
(* the value of a row: a rational, a power of pi and the base units *)
Definition row_val (b : bases) (r : row) : R := Q2R (r_q r) * powerRZ PI (r_pi r) * dval b (r_dim r).

Definition one_ := mkdim 0 0 0 0 0.
Definition length_ := mkdim 1 0 0 0 0.
Definition volume_ := mkdim 3 0 0 0 0.
Definition time_ := mkdim 0 0 1 0 0.
Definition frequency_ := mkdim 0 0 (-1) 0 0.
Definition mass_ := mkdim 0 1 0 0 0.
Definition energy_ := mkdim 2 1 (-2) 0 0.
Definition density_ := mkdim (-3) 0 0 0 0.
Definition force_ := mkdim 1 1 (-2) 0 0.
Definition pressure_ := mkdim (-1) 1 (-2) 0 0.
Definition power_ := mkdim 2 1 (-3) 0 0.
Definition temperature_ := mkdim 0 0 0 0 1.
Definition charge_ := mkdim 0 0 0 1 0.
Definition current_ := mkdim 0 0 (-1) 1 0.
Definition voltage_ := mkdim 2 1 (-2) (-1) 0.
Definition resistance_ := mkdim 2 1 (-1) (-2) 0.
Definition conductance_ := mkdim (-2) (-1) 1 2 0.
Definition field_ := mkdim 0 1 (-1) (-1) 0.
Definition hfield_ := mkdim (-1) 0 (-1) 1 0.
Definition flux_ := mkdim 2 1 (-1) (-1) 0.
Definition capacitance_ := mkdim (-2) (-1) 2 2 0.
Definition inductance_ := mkdim 2 1 0 (-2) 0.

Local Open Scope Q_scope.
Definition ten (e : Z) : Q := Qpower 10 e.
Definition named : list row := [
  mkrow "m" 1 0 length_; mkrow "kg" 1 0 mass_; mkrow "s" 1 0 time_; mkrow "C" 1 0 charge_; mkrow "K" 1 0 temperature_;
  mkrow "angstrom" (ten (-10)) 0 length_; mkrow "lightyear" (9460730472580800 # 1) 0 length_;
  mkrow "astro_unit" (149597870700 # 1) 0 length_; mkrow "pc" ((648000 # 1) * (149597870700 # 1)) (-1) length_;
  mkrow "inch" (254 # 10000) 0 length_; mkrow "foot" (3048 # 10000) 0 length_; mkrow "mile" (1609344 # 1000) 0 length_;
  mkrow "thou" (254 # 10000000) 0 length_;
  mkrow "L" (ten (-3)) 0 volume_;
  mkrow "minute" 60 0 time_; mkrow "hour" 3600 0 time_; mkrow "day" 86400 0 time_; mkrow "week" 604800 0 time_;
  mkrow "year" (315581497635456 # 10000000) 0 time_; mkrow "Hz" 1 0 frequency_;
  mkrow "g" (ten (-3)) 0 mass_; mkrow "tonne" 1000 0 mass_; mkrow "amu" (1660538921 * ten (-36)) 0 mass_;
  mkrow "Da" (1660538921 * ten (-36)) 0 mass_; mkrow "lbm" (45359237 # 100000000) 0 mass_;
  mkrow "J" 1 0 energy_; mkrow "erg" (ten (-7)) 0 energy_; mkrow "eV" (1602176565 * ten (-28)) 0 energy_;
  mkrow "btu" (1055056 # 1000) 0 energy_; mkrow "smallcal" (4184 # 1000) 0 energy_; mkrow "kcal" 4184 0 energy_;
  mkrow "Wh" 3600 0 energy_;
  mkrow "NA" (602214129 * ten 15) 0 one_; mkrow "mol" (602214129 * ten 15) 0 one_; mkrow "M" (602214129 * ten 18) 0 density_;
  mkrow "N" 1 0 force_; mkrow "dyn" (ten (-5)) 0 force_; mkrow "lbf" (44482216152605 # 10000000000000) 0 force_;
  mkrow "Pa" 1 0 pressure_; mkrow "bar" 100000 0 pressure_; mkrow "atm" 101325 0 pressure_; mkrow "torr" (101325 # 760) 0 pressure_;
  mkrow "psi" ((44482216152605 # 10000000000000) / (64516 # 100000000)) 0 pressure_;
  mkrow "W" 1 0 power_; mkrow "degFinterval" (5 # 9) 0 temperature_; mkrow "degCinterval" 1 0 temperature_;
  mkrow "Ah" 3600 0 charge_; mkrow "A" 1 0 current_; mkrow "V" 1 0 voltage_; mkrow "ohm" 1 0 resistance_; mkrow "S" 1 0 conductance_;
  mkrow "T" 1 0 field_; mkrow "G" (ten (-4)) 0 field_; mkrow "Oe" 250 (-1) hfield_; mkrow "Wb" 1 0 flux_;
  mkrow "F" 1 0 capacitance_; mkrow "H" 1 0 inductance_;
  mkrow "c0" 299792458 0 (mkdim 1 0 (-1) 0 0); mkrow "mu0" (4 * ten (-7)) 1 (mkdim 1 1 0 (-2) 0);
  mkrow "eps0" (/ (4 * ten (-7) * (299792458 * 299792458))) (-1) (mkdim (-3) (-1) 2 2 0);
  mkrow "Z0" (4 * ten (-7) * 299792458) 1 resistance_;
  mkrow "hPlanck" (662606957 * ten (-42)) 0 (mkdim 2 1 (-1) 0 0); mkrow "hbar" (662606957 * ten (-42) / 2) (-1) (mkdim 2 1 (-1) 0 0);
  mkrow "kB" (13806488 * ten (-30)) 0 (mkdim 2 1 (-2) 0 (-1)); mkrow "Rgas" (13806488 * ten (-30)) 0 (mkdim 2 1 (-2) 0 (-1));
  mkrow "GNewton" (667384 * ten (-16)) 0 (mkdim 3 (-1) (-2) 0 0); mkrow "sigmaSB" (5670373 * ten (-14)) 0 (mkdim 0 1 (-3) 0 (-4));
  mkrow "alphaFS" (72973525698 * ten (-13)) 0 one_; mkrow "e" (1602176565 * ten (-28)) 0 charge_;
  mkrow "uBohr" (927400968 * ten (-32)) 0 (mkdim 2 0 (-1) 1 0); mkrow "uNuc" (505078353 * ten (-35)) 0 (mkdim 2 0 (-1) 1 0);
  mkrow "aBohr" (52917721092 * ten (-21)) 0 length_; mkrow "me" (910938291 * ten (-39)) 0 mass_;
  mkrow "mp" (1672621777 * ten (-36)) 0 mass_; mkrow "mn" (1674927351 * ten (-36)) 0 mass_;
  mkrow "Rinf" (10973731568539 # 1000000) 0 (mkdim (-1) 0 0 0 0); mkrow "Ry" (2179872171 * ten (-27)) 0 energy_;
  mkrow "ARichardson" (4 * (1602176565 * ten (-28)) * (910938291 * ten (-39)) * (13806488 * ten (-30)) * (13806488 * ten (-30))
                       / ((662606957 * ten (-42)) * (662606957 * ten (-42)) * (662606957 * ten (-42)))) 1 (mkdim (-2) 0 (-1) 1 (-2));
  mkrow "Phi0" (2067833758 * ten (-24)) 0 flux_; mkrow "KJos" (483597870 * ten 6) 0 (mkdim (-2) (-1) 1 1 0);
  mkrow "RKlitz" (258128074434 * ten (-7)) 0 resistance_;
  mkrow "REarth" 6371000 0 length_; mkrow "g0" (980665 # 100000) 0 (mkdim 1 0 (-2) 0 0);
  mkrow "Msolar" (198892 * ten 25) 0 mass_; mkrow "MEarth" (59736 * ten 20) 0 mass_].

(* SI prefixes *)
Definition prefixes : list (string * Z) :=
  [("a", -18); ("f", -15); ("p", -12); ("n", -9); ("u", -6); ("m", -3); ("c", -2); ("d", -1);
   ("h", 2); ("k", 3); ("M", 6); ("G", 9); ("T", 12); ("P", 15)]%Z.
(* which prefixes a unit comes with *)
Definition prefixed : list (string * list string) := [
  ("m", ["c"; "m"; "u"; "n"; "p"; "f"; "k"]); ("pc", ["k"; "M"; "G"]); ("L", ["m"; "u"; "n"; "p"; "f"; "a"; "k"; "M"; "G"]);
  ("s", ["m"; "u"; "n"; "p"; "f"]); ("Hz", ["m"; "k"; "M"; "G"; "T"; "P"]); ("g", ["m"; "u"; "n"; "p"; "f"; "k"]); ("Da", ["k"]);
  ("J", ["m"; "u"; "n"; "p"; "f"; "k"; "M"; "G"]); ("eV", ["m"; "k"; "M"; "G"; "T"]); ("Wh", ["k"]);
  ("mol", ["m"; "u"; "n"; "p"; "f"]); ("M", ["m"; "u"; "n"; "p"; "f"]); ("Pa", ["h"; "k"; "M"; "G"]);
  ("bar", ["m"; "c"; "d"; "k"; "M"]); ("torr", ["m"]); ("W", ["m"; "u"; "n"; "p"; "k"; "M"; "G"; "T"]);
  ("C", ["m"; "u"; "n"]); ("Ah", ["m"]); ("A", ["m"; "u"; "n"; "p"; "f"]); ("V", ["m"; "u"; "n"; "k"; "M"; "G"; "T"]);
  ("ohm", ["m"; "k"; "M"; "G"]); ("S", ["m"; "u"; "n"]); ("T", ["m"; "u"; "n"]); ("G", ["m"; "u"; "k"]);
  ("F", ["u"; "n"; "p"; "f"; "a"]); ("H", ["m"; "u"; "n"])].
Definition prefixed_rows : list row :=
  flat_map (fun up =>
    flat_map (fun r => if String.eqb (r_name r) (fst up) then
      flat_map (fun p => flat_map (fun pe => if String.eqb (fst pe) p
         then [mkrow (p ++ fst up) (ten (snd pe) * r_q r) (r_pi r) (r_dim r)] else []) prefixes) (snd up)
      else []) named) prefixed.
Definition table : list row := named ++ prefixed_rows.

(* formulas that a program writes with the units, sums included *)
Inductive formula :=
| FNum (x : R) | FUnit (x : string)
| FAdd (a b : formula) | FSub (a b : formula) | FMul (a b : formula) | FDiv (a b : formula) | FPow (a : formula) (n : nat).
(* its value; None for an unknown name or a division by zero *)
Fixpoint fval (g : env R) (f : formula) : option R :=
  match f with
  | FNum x => Some x
  | FUnit x => lookup x g
  | FAdd a b => match fval g a, fval g b with Some u, Some v => Some (u + v)%R | _, _ => None end
  | FSub a b => match fval g a, fval g b with Some u, Some v => Some (u - v)%R | _, _ => None end
  | FMul a b => match fval g a, fval g b with Some u, Some v => Some (u * v)%R | _, _ => None end
  | FDiv a b => match fval g a, fval g b with
                | Some u, Some v => if Req_EM_T v 0 then None else Some (u / v)%R | _, _ => None end
  | FPow a n => match fval g a with Some u => Some (u ^ n)%R | None => None end
  end.
(* dimensional analysis *)
Inductive has_dim : formula -> dim -> Prop :=
| HNum x : has_dim (FNum x) one_
| HUnit r : In r table -> has_dim (FUnit (r_name r)) (r_dim r)
| HAdd a b d : has_dim a d -> has_dim b d -> has_dim (FAdd a b) d
| HSub a b d : has_dim a d -> has_dim b d -> has_dim (FSub a b) d
| HMul a b d e : has_dim a d -> has_dim b e -> has_dim (FMul a b)
    (mkdim (d_m d + d_m e) (d_kg d + d_kg e) (d_s d + d_s e) (d_C d + d_C e) (d_K d + d_K e))
| HDiv a b d e : has_dim a d -> has_dim b e -> has_dim (FDiv a b)
    (mkdim (d_m d - d_m e) (d_kg d - d_kg e) (d_s d - d_s e) (d_C d - d_C e) (d_K d - d_K e))
| HPow a n d : has_dim a d -> has_dim (FPow a n)
    (mkdim (Z.of_nat n * d_m d) (Z.of_nat n * d_kg d) (Z.of_nat n * d_s d) (Z.of_nat n * d_C d) (Z.of_nat n * d_K d)).

(* relations between the constants: left, right, relative tolerance *)
Definition V (x : string) := EVar x.
Definition n_ (z : Z) := ENum (z # 1).
Infix "*e" := EMul (at level 40, left associativity).
Infix "/e" := EDiv (at level 40, left associativity).
Infix "^e" := EPow (at level 30).
Definition relations : list (expr * expr * Q) := [
  (V "c0" ^e 2 *e V "mu0" *e V "eps0", n_ 1, 0);
  (V "lbm" *e V "g0", V "lbf", 0);
  (V "e" *e V "V", V "eV", 0);
  (V "c0" *e (ENum (36525 # 100) *e V "day"), V "lightyear", 0);
  (n_ 2 *e EPi *e V "hbar", V "hPlanck", 0);
  (V "ohm" *e V "F", V "s", 0);
  (V "H" *e V "A", V "Wb", 0);
  (V "T" *e V "m" ^e 2, V "Wb", 0);
  (V "Da" *e V "NA", V "g", 1 # 100000000);
  (V "hPlanck" /e (n_ 2 *e V "e"), V "Phi0", 1 # 100000000);
  (n_ 2 *e V "e" /e V "hPlanck", V "KJos", 1 # 100000000);
  (V "hPlanck" /e V "e" ^e 2, V "RKlitz", 1 # 100000000);
  (V "Rinf" *e V "hPlanck" *e V "c0", V "Ry", 1 # 100000000);
  (V "alphaFS" ^e 2 *e V "me" *e V "c0" /e (n_ 2 *e V "hPlanck"), V "Rinf", 1 # 100000000);
  (V "uBohr" *e V "me" /e V "mp", V "uNuc", 1 # 100000000);
  (V "e" ^e 2 /e (n_ 4 *e EPi *e V "eps0" *e V "hbar" *e V "c0"), V "alphaFS", 1 # 10000);
  (V "hbar" /e (V "me" *e V "c0" *e V "alphaFS"), V "aBohr", 1 # 10000);
  (V "e" *e V "hbar" /e (n_ 2 *e V "me"), V "uBohr", 1 # 10000);
  (n_ 2 *e EPi ^e 5 *e V "kB" ^e 4 /e (n_ 15 *e V "hPlanck" ^e 3 *e V "c0" ^e 2), V "sigmaSB", 1 # 5000)].
