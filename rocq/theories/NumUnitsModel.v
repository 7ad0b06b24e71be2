(* Model of the vendored package numericalunits (numericalunits.py), imported
   by common/__init__.py:9. Floats are reals, decimal literals exact. The
   function set_derived_units_and_constants is a straight list of assignments;
   it is transcribed as a program over module globals and evaluated by an
   interpreter. The generator of random numbers is a parameter. *)
From Coq Require Import Reals QArith List String ZArith.
Import ListNotations.
Local Open Scope string_scope.

(* the expressions on the right-hand sides of numericalunits.py:93-347 *)
Inductive expr :=
| ENum (q : Q)
| EPi
| EVar (x : string)
| EMul (a b : expr)
| EDiv (a b : expr)
| EPow (a : expr) (n : nat).
(* a decimal literal mant * 10^e *)
Definition Dec (mant : positive) (e : Z) : expr :=
  ENum (match e with
        | Z0 => Zpos mant # 1
        | Zpos p => (Zpos mant * Z.pow_pos 10 p)%Z # 1
        | Zneg p => Zpos mant # (Pos.pow 10 p)
        end).

Definition env (A : Type) := list (string * A).
Fixpoint lookup {A} (x : string) (g : env A) : option A :=
  match g with
  | [] => None
  | (y, v) :: g' => if String.eqb x y then Some v else lookup x g'
  end.

(* evaluation; None is NameError or ZeroDivisionError *)
Fixpoint eval (g : env R) (e : expr) : option R :=
  match e with
  | ENum q => Some (Q2R q)
  | EPi => Some PI
  | EVar x => lookup x g
  | EMul a b => match eval g a, eval g b with Some u, Some v => Some (u * v)%R | _, _ => None end
  | EDiv a b => match eval g a, eval g b with
                | Some u, Some v => if Req_EM_T v 0 then None else Some (u / v)%R
                | _, _ => None end
  | EPow a n => match eval g a with Some u => Some (u ^ n)%R | None => None end
  end.
Fixpoint exec (g : env R) (p : list (string * expr)) : option (env R) :=
  match p with
  | [] => Some g
  | (x, e) :: p' => match eval g e with Some v => exec ((x, v) :: g) p' | None => None end
  end.

(* numericalunits.py:93-347: the assignments, in order *)
Definition derived : list (string * expr) := [
  ("cm", EMul (Dec 1 (-2)) (EVar "m"));
  ("mm", EMul (Dec 1 (-3)) (EVar "m"));
  ("um", EMul (Dec 1 (-6)) (EVar "m"));
  ("nm", EMul (Dec 1 (-9)) (EVar "m"));
  ("pm", EMul (Dec 1 (-12)) (EVar "m"));
  ("fm", EMul (Dec 1 (-15)) (EVar "m"));
  ("km", EMul (Dec 1 (3)) (EVar "m"));
  ("angstrom", EMul (Dec 1 (-10)) (EVar "m"));
  ("lightyear", EMul (ENum (9460730472580800 # 1)) (EVar "m"));
  ("astro_unit", EMul (ENum (149597870700 # 1)) (EVar "m"));
  ("pc", EMul (EDiv (ENum (648000 # 1)) EPi) (EVar "astro_unit"));
  ("kpc", EMul (Dec 1 (3)) (EVar "pc"));
  ("Mpc", EMul (Dec 1 (6)) (EVar "pc"));
  ("Gpc", EMul (Dec 1 (9)) (EVar "pc"));
  ("inch", EMul (Dec 254 (-2)) (EVar "cm"));
  ("foot", EMul (ENum (12 # 1)) (EVar "inch"));
  ("mile", EMul (ENum (5280 # 1)) (EVar "foot"));
  ("thou", EMul (Dec 1 (-3)) (EVar "inch"));
  ("L", EMul (Dec 1 (-3)) (EPow (EVar "m") 3));
  ("mL", EMul (Dec 1 (-3)) (EVar "L"));
  ("uL", EMul (Dec 1 (-6)) (EVar "L"));
  ("nL", EMul (Dec 1 (-9)) (EVar "L"));
  ("pL", EMul (Dec 1 (-12)) (EVar "L"));
  ("fL", EMul (Dec 1 (-15)) (EVar "L"));
  ("aL", EMul (Dec 1 (-18)) (EVar "L"));
  ("kL", EMul (Dec 1 (3)) (EVar "L"));
  ("ML", EMul (Dec 1 (6)) (EVar "L"));
  ("GL", EMul (Dec 1 (9)) (EVar "L"));
  ("ms", EMul (Dec 1 (-3)) (EVar "s"));
  ("us", EMul (Dec 1 (-6)) (EVar "s"));
  ("ns", EMul (Dec 1 (-9)) (EVar "s"));
  ("ps", EMul (Dec 1 (-12)) (EVar "s"));
  ("fs", EMul (Dec 1 (-15)) (EVar "s"));
  ("minute", EMul (ENum (60 # 1)) (EVar "s"));
  ("hour", EMul (ENum (60 # 1)) (EVar "minute"));
  ("day", EMul (ENum (24 # 1)) (EVar "hour"));
  ("week", EMul (ENum (7 # 1)) (EVar "day"));
  ("year", EMul (Dec 365256363004 (-9)) (EVar "day"));
  ("Hz", EDiv (ENum (1 # 1)) (EVar "s"));
  ("mHz", EMul (Dec 1 (-3)) (EVar "Hz"));
  ("kHz", EMul (Dec 1 (3)) (EVar "Hz"));
  ("MHz", EMul (Dec 1 (6)) (EVar "Hz"));
  ("GHz", EMul (Dec 1 (9)) (EVar "Hz"));
  ("THz", EMul (Dec 1 (12)) (EVar "Hz"));
  ("PHz", EMul (Dec 1 (15)) (EVar "Hz"));
  ("g", EMul (Dec 1 (-3)) (EVar "kg"));
  ("mg", EMul (Dec 1 (-3)) (EVar "g"));
  ("ug", EMul (Dec 1 (-6)) (EVar "g"));
  ("ng", EMul (Dec 1 (-9)) (EVar "g"));
  ("pg", EMul (Dec 1 (-12)) (EVar "g"));
  ("fg", EMul (Dec 1 (-15)) (EVar "g"));
  ("tonne", EMul (Dec 1 (3)) (EVar "kg"));
  ("amu", EMul (Dec 1660538921 (-36)) (EVar "kg"));
  ("Da", EVar "amu");
  ("kDa", EMul (Dec 1 (3)) (EVar "Da"));
  ("lbm", EMul (Dec 45359237 (-8)) (EVar "kg"));
  ("J", EDiv (EMul (EVar "kg") (EPow (EVar "m") 2)) (EPow (EVar "s") 2));
  ("mJ", EMul (Dec 1 (-3)) (EVar "J"));
  ("uJ", EMul (Dec 1 (-6)) (EVar "J"));
  ("nJ", EMul (Dec 1 (-9)) (EVar "J"));
  ("pJ", EMul (Dec 1 (-12)) (EVar "J"));
  ("fJ", EMul (Dec 1 (-15)) (EVar "J"));
  ("kJ", EMul (Dec 1 (3)) (EVar "J"));
  ("MJ", EMul (Dec 1 (6)) (EVar "J"));
  ("GJ", EMul (Dec 1 (9)) (EVar "J"));
  ("erg", EMul (Dec 1 (-7)) (EVar "J"));
  ("eV", EMul (Dec 1602176565 (-28)) (EVar "J"));
  ("meV", EMul (Dec 1 (-3)) (EVar "eV"));
  ("keV", EMul (Dec 1 (3)) (EVar "eV"));
  ("MeV", EMul (Dec 1 (6)) (EVar "eV"));
  ("GeV", EMul (Dec 1 (9)) (EVar "eV"));
  ("TeV", EMul (Dec 1 (12)) (EVar "eV"));
  ("btu", EMul (Dec 1055056 (-3)) (EVar "J"));
  ("smallcal", EMul (Dec 4184 (-3)) (EVar "J"));
  ("kcal", EMul (ENum (4184 # 1)) (EVar "J"));
  ("Wh", EMul (ENum (3600 # 1)) (EVar "J"));
  ("kWh", EMul (Dec 1 (3)) (EVar "Wh"));
  ("NA", Dec 602214129 (15));
  ("mol", EVar "NA");
  ("mmol", EMul (Dec 1 (-3)) (EVar "mol"));
  ("umol", EMul (Dec 1 (-6)) (EVar "mol"));
  ("nmol", EMul (Dec 1 (-9)) (EVar "mol"));
  ("pmol", EMul (Dec 1 (-12)) (EVar "mol"));
  ("fmol", EMul (Dec 1 (-15)) (EVar "mol"));
  ("M", EDiv (EVar "mol") (EVar "L"));
  ("mM", EMul (Dec 1 (-3)) (EVar "M"));
  ("uM", EMul (Dec 1 (-6)) (EVar "M"));
  ("nM", EMul (Dec 1 (-9)) (EVar "M"));
  ("pM", EMul (Dec 1 (-12)) (EVar "M"));
  ("fM", EMul (Dec 1 (-15)) (EVar "M"));
  ("N", EDiv (EMul (EVar "kg") (EVar "m")) (EPow (EVar "s") 2));
  ("dyn", EMul (Dec 1 (-5)) (EVar "N"));
  ("lbf", EMul (Dec 44482216152605 (-13)) (EVar "N"));
  ("Pa", EDiv (EVar "N") (EPow (EVar "m") 2));
  ("hPa", EMul (Dec 1 (2)) (EVar "Pa"));
  ("kPa", EMul (Dec 1 (3)) (EVar "Pa"));
  ("MPa", EMul (Dec 1 (6)) (EVar "Pa"));
  ("GPa", EMul (Dec 1 (9)) (EVar "Pa"));
  ("bar", EMul (Dec 1 (5)) (EVar "Pa"));
  ("mbar", EMul (Dec 1 (-3)) (EVar "bar"));
  ("cbar", EMul (Dec 1 (-2)) (EVar "bar"));
  ("dbar", EMul (Dec 1 (-1)) (EVar "bar"));
  ("kbar", EMul (Dec 1 (3)) (EVar "bar"));
  ("Mbar", EMul (Dec 1 (6)) (EVar "bar"));
  ("atm", EMul (ENum (101325 # 1)) (EVar "Pa"));
  ("torr", EMul (EDiv (ENum (1 # 1)) (ENum (760 # 1))) (EVar "atm"));
  ("mtorr", EMul (Dec 1 (-3)) (EVar "torr"));
  ("psi", EDiv (EVar "lbf") (EPow (EVar "inch") 2));
  ("W", EDiv (EVar "J") (EVar "s"));
  ("mW", EMul (Dec 1 (-3)) (EVar "W"));
  ("uW", EMul (Dec 1 (-6)) (EVar "W"));
  ("nW", EMul (Dec 1 (-9)) (EVar "W"));
  ("pW", EMul (Dec 1 (-12)) (EVar "W"));
  ("kW", EMul (Dec 1 (3)) (EVar "W"));
  ("MW", EMul (Dec 1 (6)) (EVar "W"));
  ("GW", EMul (Dec 1 (9)) (EVar "W"));
  ("TW", EMul (Dec 1 (12)) (EVar "W"));
  ("degFinterval", EMul (EDiv (ENum (5 # 1)) (ENum (9 # 1))) (EVar "K"));
  ("degCinterval", EVar "K");
  ("mC", EMul (Dec 1 (-3)) (EVar "C"));
  ("uC", EMul (Dec 1 (-6)) (EVar "C"));
  ("nC", EMul (Dec 1 (-9)) (EVar "C"));
  ("Ah", EMul (ENum (3600 # 1)) (EVar "C"));
  ("mAh", EMul (Dec 1 (-3)) (EVar "Ah"));
  ("A", EDiv (EVar "C") (EVar "s"));
  ("mA", EMul (Dec 1 (-3)) (EVar "A"));
  ("uA", EMul (Dec 1 (-6)) (EVar "A"));
  ("nA", EMul (Dec 1 (-9)) (EVar "A"));
  ("pA", EMul (Dec 1 (-12)) (EVar "A"));
  ("fA", EMul (Dec 1 (-15)) (EVar "A"));
  ("V", EDiv (EVar "J") (EVar "C"));
  ("mV", EMul (Dec 1 (-3)) (EVar "V"));
  ("uV", EMul (Dec 1 (-6)) (EVar "V"));
  ("nV", EMul (Dec 1 (-9)) (EVar "V"));
  ("kV", EMul (Dec 1 (3)) (EVar "V"));
  ("MV", EMul (Dec 1 (6)) (EVar "V"));
  ("GV", EMul (Dec 1 (9)) (EVar "V"));
  ("TV", EMul (Dec 1 (12)) (EVar "V"));
  ("ohm", EDiv (EVar "V") (EVar "A"));
  ("mohm", EMul (Dec 1 (-3)) (EVar "ohm"));
  ("kohm", EMul (Dec 1 (3)) (EVar "ohm"));
  ("Mohm", EMul (Dec 1 (6)) (EVar "ohm"));
  ("Gohm", EMul (Dec 1 (9)) (EVar "ohm"));
  ("S", EDiv (ENum (1 # 1)) (EVar "ohm"));
  ("mS", EMul (Dec 1 (-3)) (EVar "S"));
  ("uS", EMul (Dec 1 (-6)) (EVar "S"));
  ("nS", EMul (Dec 1 (-9)) (EVar "S"));
  ("T", EDiv (EMul (EVar "V") (EVar "s")) (EPow (EVar "m") 2));
  ("mT", EMul (Dec 1 (-3)) (EVar "T"));
  ("uT", EMul (Dec 1 (-6)) (EVar "T"));
  ("nT", EMul (Dec 1 (-9)) (EVar "T"));
  ("G", EMul (Dec 1 (-4)) (EVar "T"));
  ("mG", EMul (Dec 1 (-3)) (EVar "G"));
  ("uG", EMul (Dec 1 (-6)) (EVar "G"));
  ("kG", EMul (Dec 1 (3)) (EVar "G"));
  ("Oe", EDiv (EMul (EDiv (ENum (1000 # 1)) (EMul (ENum (4 # 1)) EPi)) (EVar "A")) (EVar "m"));
  ("Wb", EDiv (EVar "J") (EVar "A"));
  ("F", EDiv (EVar "C") (EVar "V"));
  ("uF", EMul (Dec 1 (-6)) (EVar "F"));
  ("nF", EMul (Dec 1 (-9)) (EVar "F"));
  ("pF", EMul (Dec 1 (-12)) (EVar "F"));
  ("fF", EMul (Dec 1 (-15)) (EVar "F"));
  ("aF", EMul (Dec 1 (-18)) (EVar "F"));
  ("H", EDiv (EMul (EPow (EVar "m") 2) (EVar "kg")) (EPow (EVar "C") 2));
  ("mH", EMul (Dec 1 (-3)) (EVar "H"));
  ("uH", EMul (Dec 1 (-6)) (EVar "H"));
  ("nH", EMul (Dec 1 (-9)) (EVar "H"));
  ("c0", EDiv (EMul (ENum (299792458 # 1)) (EVar "m")) (EVar "s"));
  ("mu0", EDiv (EMul (EMul (EMul (ENum (4 # 1)) EPi) (Dec 1 (-7))) (EVar "N")) (EPow (EVar "A") 2));
  ("eps0", EDiv (ENum (1 # 1)) (EMul (EVar "mu0") (EPow (EVar "c0") 2)));
  ("Z0", EMul (EVar "mu0") (EVar "c0"));
  ("hPlanck", EMul (EMul (Dec 662606957 (-42)) (EVar "J")) (EVar "s"));
  ("hbar", EDiv (EVar "hPlanck") (EMul (ENum (2 # 1)) EPi));
  ("kB", EDiv (EMul (Dec 13806488 (-30)) (EVar "J")) (EVar "K"));
  ("GNewton", EDiv (EMul (Dec 667384 (-16)) (EPow (EVar "m") 3)) (EMul (EVar "kg") (EPow (EVar "s") 2)));
  ("sigmaSB", EDiv (EMul (Dec 5670373 (-14)) (EVar "W")) (EMul (EPow (EVar "m") 2) (EPow (EVar "K") 4)));
  ("alphaFS", Dec 72973525698 (-13));
  ("Rgas", EVar "kB");
  ("e", EMul (Dec 1602176565 (-28)) (EVar "C"));
  ("uBohr", EDiv (EMul (Dec 927400968 (-32)) (EVar "J")) (EVar "T"));
  ("uNuc", EDiv (EMul (Dec 505078353 (-35)) (EVar "J")) (EVar "T"));
  ("aBohr", EMul (Dec 52917721092 (-21)) (EVar "m"));
  ("me", EMul (Dec 910938291 (-39)) (EVar "kg"));
  ("mp", EMul (Dec 1672621777 (-36)) (EVar "kg"));
  ("mn", EMul (Dec 1674927351 (-36)) (EVar "kg"));
  ("Rinf", EDiv (Dec 10973731568539 (-6)) (EVar "m"));
  ("Ry", EMul (Dec 2179872171 (-27)) (EVar "J"));
  ("ARichardson", EDiv (EMul (EMul (EMul (EMul (ENum (4 # 1)) EPi) (EVar "e")) (EVar "me")) (EPow (EVar "kB") 2)) (EPow (EVar "hPlanck") 3));
  ("Phi0", EMul (Dec 2067833758 (-24)) (EVar "Wb"));
  ("KJos", EDiv (EMul (Dec 483597870 (6)) (EVar "Hz")) (EVar "V"));
  ("RKlitz", EMul (Dec 258128074434 (-7)) (EVar "ohm"));
  ("REarth", EMul (ENum (6371 # 1)) (EVar "km"));
  ("g0", EDiv (EMul (Dec 980665 (-5)) (EVar "m")) (EPow (EVar "s") 2));
  ("Msolar", EMul (Dec 198892 (25)) (EVar "kg"));
  ("MEarth", EMul (Dec 59736 (20)) (EVar "kg"))].
(* the names the global statements of the function declare; any other
   assigned name would be local to the function *)
Definition declared : list string :=
  ["cm"; "mm"; "um"; "nm"; "pm"; "fm"; "km"; "angstrom"; "lightyear"; "astro_unit"; "pc"; "kpc"; "Mpc"; "Gpc"; "inch"; "foot"; "mile"; "thou";
   "L"; "mL"; "uL"; "nL"; "pL"; "fL"; "aL"; "kL"; "ML"; "GL";
   "ms"; "us"; "ns"; "ps"; "fs"; "minute"; "hour"; "day"; "week"; "year";
   "Hz"; "mHz"; "kHz"; "MHz"; "GHz"; "THz"; "PHz";
   "g"; "mg"; "ug"; "ng"; "pg"; "fg"; "tonne"; "amu"; "Da"; "kDa"; "lbm";
   "J"; "mJ"; "uJ"; "nJ"; "pJ"; "fJ"; "kJ"; "MJ"; "GJ"; "erg"; "eV"; "meV"; "keV"; "MeV"; "GeV"; "TeV"; "btu"; "smallcal"; "kcal"; "Wh"; "kWh";
   "NA"; "mol"; "mmol"; "umol"; "nmol"; "pmol"; "fmol"; "M"; "mM"; "uM"; "nM"; "pM"; "fM";
   "N"; "dyn"; "lbf";
   "Pa"; "hPa"; "kPa"; "MPa"; "GPa"; "bar"; "mbar"; "cbar"; "dbar"; "kbar"; "Mbar"; "atm"; "torr"; "mtorr"; "psi";
   "W"; "mW"; "uW"; "nW"; "pW"; "kW"; "MW"; "GW"; "TW";
   "degFinterval"; "degCinterval";
   "mC"; "uC"; "nC"; "Ah"; "mAh";
   "A"; "mA"; "uA"; "nA"; "pA"; "fA";
   "V"; "mV"; "uV"; "nV"; "kV"; "MV"; "GV"; "TV";
   "ohm"; "mohm"; "kohm"; "Mohm"; "Gohm"; "S"; "mS"; "uS"; "nS";
   "T"; "mT"; "uT"; "nT"; "G"; "mG"; "uG"; "kG"; "Oe"; "Wb";
   "F"; "uF"; "nF"; "pF"; "fF"; "aF"; "H"; "mH"; "uH"; "nH";
   "c0"; "mu0"; "eps0"; "Z0"; "hPlanck"; "hbar"; "kB"; "GNewton"; "sigmaSB"; "alphaFS";
   "Rgas"; "e"; "uBohr"; "uNuc"; "aBohr"; "me"; "mp"; "mn"; "Rinf"; "Ry"; "ARichardson"; "Phi0"; "KJos"; "RKlitz";
   "REarth"; "g0"; "Msolar"; "MEarth"].

(* the base units, numericalunits.py:53-73 *)
Record bases := mkbases { b_m : R; b_kg : R; b_s : R; b_C : R; b_K : R }.
Definition base_env (b : bases) : env R :=
  [("m", b_m b); ("kg", b_kg b); ("s", b_s b); ("C", b_C b); ("K", b_K b)].
Definition exported (x : string) : bool := existsb (String.eqb x) (["m"; "kg"; "s"; "C"; "K"] ++ declared).
(* numericalunits.py:83-347: the module globals after the call; names
   that are not declared global stay local *)
Definition set_derived (b : bases) : option (env R) :=
  match exec (base_env b) derived with
  | Some g => Some (filter (fun p => exported (fst p)) g)
  | None => None
  end.

(* numericalunits.py:33-80: reset_units. The generator of module random is a
   state G with seeding from the operating system (entropy), seeding from a
   number, and uniform(lo, hi). *)
Inductive seed_arg := SeedNone | SeedSI | SeedNum (n : Z).
Section Reset.
Context {G : Type} (reseed : Z -> G) (entropy : G) (uniform : R -> R -> G -> R * G).
Definition draw (lo hi : R) (g : G) : R * G :=
  let (u, g1) := uniform lo hi g in (Rpower 10 u, g1).
Definition draw_bases (lo hi : R) (g : G) : bases :=
  let (vm, g1) := draw lo hi g in
  let (vkg, g2) := draw lo hi g1 in
  let (vs, g3) := draw lo hi g2 in
  let (vC, g4) := draw lo hi g3 in
  let (vK, _) := draw lo hi g4 in
  mkbases vm vkg vs vC vK.
Definition reset_units (sd : seed_arg) (lo hi : R) (g : G) : option (env R) * G :=
  match sd with
  | SeedSI => (set_derived (mkbases 1 1 1 1 1), g)
  | SeedNone => (set_derived (draw_bases lo hi entropy), g)
  | SeedNum n => (set_derived (draw_bases lo hi (reseed n)), g)
  end.
End Reset.
