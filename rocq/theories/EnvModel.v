(* Model of environment.py and of getboolenv (common/utils.py:102-108). *)
From Verif Require Import Base.

Section Env.
(* Floating-point numbers are opaque here: only whether one is zero matters. *)
Variable F : Type.
Variable f_zero : F -> bool.
Variable float_of_string : string -> option F.   (* Python float(str), None = ValueError *)
Variable int_of_string : string -> option Z.     (* Python int(str), None = ValueError *)

Inductive pyval := VNone | VBool (b : bool) | VInt (z : Z) | VFloat (f : F) | VStr (s : string).

(* Python truthiness of the values that can occur *)
Definition truthy (v : pyval) : bool :=
  match v with
  | VNone => false
  | VBool b => b
  | VInt z => negb (z =? 0)%Z
  | VFloat f => negb (f_zero f)
  | VStr s => negb (String.eqb s "")
  end.

(* typ(val) where typ = type(default): environment.py:64-66. Only the types of
   truthy defaults are reachable; val is either the default itself or a string
   from os.environ. int(float) etc. never occur. *)
Definition coerce (default val : pyval) : result pyval :=
  match default, val with
  | VBool _, v => Ok (VBool (truthy v))
  | VInt _, VInt z => Ok (VInt z)
  | VInt _, VStr s => match int_of_string s with Some z => Ok (VInt z) | None => Raise ValueError end
  | VFloat _, VFloat f => Ok (VFloat f)
  | VFloat _, VStr s => match float_of_string s with Some f => Ok (VFloat f) | None => Raise ValueError end
  | VStr _, VStr s => Ok (VStr s)
  | _, _ => Raise TypeError
  end.

Fixpoint assoc (t : list (string * pyval)) (n : string) : option pyval :=
  match t with
  | [] => None
  | (k, v) :: r => if String.eqb k n then Some v else assoc r n
  end.

Definition orNone (o : option pyval) : pyval := match o with Some v => v | None => VNone end.

(* environment.py:59-68 *)
Definition env_get (defaults : list (string * pyval)) (environ : string -> option string) (name : string)
  : result pyval :=
  let default := orNone (assoc defaults name) in
  let val := match environ name with Some s => VStr s | None => default end in
  if truthy default then coerce default val else Ok val.

(* common/utils.py:102-108; `default` is any value; the comparison of a
   non-string with the listed strings is always False in Python. *)
Definition getboolenv (environ : string -> option string) (var : string) (default : pyval) : bool :=
  let value := match environ var with Some s => VStr s | None => default end in
  negb (match value with VBool false => true | _ => false end) &&
  negb (match value with VNone => true | _ => false end) &&
  negb (match value with
        | VStr s => existsb (String.eqb s) ["false"; "f"; "0"; "-1"]%string
        | _ => false
        end).

(* environment.py:4-57, the entries and their types; the two float defaults
   (0.24999 and 1e3) are parameters because floats are opaque. *)
Definition repo_defaults (f_resolution f_regime : F) : list (string * pyval) :=
  [("SPLIT_COLLISION_INTEGRAL", VBool true);
   ("FIXED_ORDER_1D_QUADRATURE", VBool true);
   ("GAUSS_LEGENDRE_ORDER", VInt 100);
   ("GAUSS_LAGUERRE_ORDER", VInt 100);
   ("LOGARITHMIC_TIMESTEP", VBool true);
   ("ADAMS_BASHFORTH_TEMPERATURE_CORRECTION", VBool true);
   ("ADAMS_MOULTON_DISTRIBUTION_CORRECTION", VBool false);
   ("MOMENTUM_SAMPLES", VInt 401);
   ("MAX_MOMENTUM_MEV", VInt 100);
   ("MAX_SCALE_FACTOR", VInt 10);
   ("FOUR_PARTICLE_GRID_RESOLUTION", VFloat f_resolution);
   ("NORMAL_HIERARCHY_NEUTRINOS", VBool true);
   ("REGIME_SWITCHING_FACTOR", VFloat f_regime);
   ("SIMPSONS_INTEGRATION", VBool false);
   ("SIMPSONS_NONEQ_PARTICLES", VBool true);
   ("LAGUERRE_GAUSS_FOR_MASSIVE_EQUILIBRIUM_PARTICLES", VBool true)]%string.
End Env.
Arguments VNone {F}.
Arguments VBool {F} b.
Arguments VInt {F} z.
Arguments VFloat {F} f.
Arguments VStr {F} s.
