(* Model of the neutrino oscillation pattern (library/SM.py:348-378), of
   Universe.oscillation_parameters / init_oscillations (evolution.py:81-100) and
   of the mixing of collision integrals (evolution.py:239-252). Values are
   finite reals; numpy arrays are `arr`: a scalar or a vector, with numpy's
   broadcasting rule for one-dimensional operands. *)
From Coq Require Import Reals.
From Verif Require Import Base ParamsModel.
Open Scope R_scope.

Inductive arr := Sc (r : R) | Ar (l : list R).
Definition amap (f : R -> R) (x : arr) : arr := match x with Sc r => Sc (f r) | Ar l => Ar (map f l) end.
Fixpoint zipw (f : R -> R -> R) (l m : list R) : list R :=
  match l, m with a :: l', b :: m' => f a b :: zipw f l' m' | _, _ => [] end.
Definition bop (f : R -> R -> R) (x y : arr) : result arr :=
  match x, y with
  | Sc a, Sc b => Ok (Sc (f a b))
  | Sc a, Ar m => Ok (Ar (map (f a) m))
  | Ar l, Sc b => Ok (Ar (map (fun a => f a b) l))
  | Ar l, Ar m =>
      if (length l =? length m)%nat then Ok (Ar (zipw f l m))
      else match l, m with
           | [a], _ => Ok (Ar (map (f a) m))
           | _, [b] => Ok (Ar (map (fun a => f a b) l))
           | _, _ => Raise ValueError
           end
  end.

(* library/SM.py:352-354 *)
Definition th12_vac : R := 57636 / 100000.
Definition th13_vac : R := 14715 / 100000.
(* 357-358: 0.5 * arctan(sin 2th / (cos 2th + MSW)); numpy gives arctan(inf) = pi/2
   for a zero denominator *)
Definition matter_angle (th msw : R) : R :=
  let d := cos (2 * th) + msw in
  / 2 * (if Req_EM_T d 0 then PI / 2 else atan (sin (2 * th) / d)).

(* 360-373: the six formulas *)
Inductive entry := EE | EM | ET | MM | MT | TT.
Definition prob (e : entry) (t12 t13 : R) : R :=
  match e with
  | EE => 1 - / 2 * (sin (2 * t13) ^ 2 + cos t13 ^ 4 * sin (2 * t12) ^ 2)
  | EM => / 2 * cos t13 ^ 2 * sin (2 * t12) ^ 2
  | ET => sin t13 ^ 2 * cos t13 ^ 2 * (2 - / 2 * sin (2 * t12) ^ 2)
  | MM => 1 - / 2 * sin (2 * t12) ^ 2
  | MT => / 2 * sin t13 ^ 2 * sin (2 * t12) ^ 2
  | TT => 1 - sin t13 ^ 2 * (2 * cos t13 ^ 2 + / 2 * sin t13 ^ 2 * sin (2 * t12) ^ 2)
  end.
(* the dictionary: nine keys; a missing key raises KeyError *)
Definition find_entry (a b : string) : result entry :=
  if String.eqb a "electron" then
    if String.eqb b "electron" then Ok EE else if String.eqb b "muon" then Ok EM else if String.eqb b "tau" then Ok ET else Raise KeyError
  else if String.eqb a "muon" then
    if String.eqb b "electron" then Ok EM else if String.eqb b "muon" then Ok MM else if String.eqb b "tau" then Ok MT else Raise KeyError
  else if String.eqb a "tau" then
    if String.eqb b "electron" then Ok ET else if String.eqb b "muon" then Ok MT else if String.eqb b "tau" then Ok TT else Raise KeyError
  else Raise KeyError.
(* 348-378. A pattern is a dictionary; MSW defaults to None, and adding None to
   a float raises TypeError *)
Definition pattern : Type := string -> string -> result arr.
Definition pattern_of (t12 t13 : arr) : pattern := fun a b =>
  let* e := find_entry a b in
  match e with MM => Ok (amap (fun t => prob MM t 0) t12) | _ => bop (prob e) t12 t13 end.
Definition oscillations_map (m12 m13 : option arr) (matter : bool) : result pattern :=
  if matter then
    match m12, m13 with
    | Some x, Some y => Ok (pattern_of (amap (matter_angle th12_vac) x) (amap (matter_angle th13_vac) y))
    | _, _ => Raise TypeError
    end
  else Ok (pattern_of (Sc th12_vac) (Sc th13_vac)).

(* an oscillating particle: flavour, decoupling temperature, collision integral *)
Record nu := mkNu { flavour : string; Tdec : R; coll : arr }.
Definition set_coll (c : arr) (A : nu) : nu := mkNu (flavour A) (Tdec A) c.

(* common/__init__.py:73-78 *)
Definition delta_m12_sq : R := 737 / 10000000 * eV ^ 2.
Definition delta_m13_sq : R := 256 / 100000 * eV ^ 2.
(* evolution.py:81-94; msw0 is CONST.MSW_constant, `template` the grid of the
   first oscillating particle (None when there is none: IndexError) *)
Definition osc_parameters (pf : option arr -> option arr -> bool -> result pattern) (msw0 T a : R) (normal matter : bool) (template : option (list R)) : result pattern :=
  if matter then
    match template with
    | None => Raise IndexError
    | Some ys =>
        pf (Some (Ar (map (fun y => msw0 * y ^ 2 * T ^ 4 / delta_m12_sq / a ^ 2) ys)))
           (Some (Ar (map (fun y => (if normal then 1 else -1) * (msw0 * y ^ 2 * T ^ 4 / delta_m13_sq / a ^ 2)) ys))) true
    end
  else pf (Some (Sc 0)) (Some (Sc 0)) false.

(* evolution.py:248: a dictionary comprehension; the last particle of a flavour wins *)
Fixpoint lookup (l : list nu) (f : string) : result arr :=
  match l with
  | [] => Raise KeyError
  | B :: r => match lookup r f with Ok x => Ok x | Raise _ => if String.eqb (flavour B) f then Ok (coll B) else Raise KeyError end
  end.
(* 251-252: sum(...), starting from the integer 0 *)
Definition mixed (p : pattern) (ps : list nu) (A : nu) : result arr :=
  rfold (fun acc B =>
           let* c := p (flavour A) (flavour B) in
           let* x := lookup ps (flavour B) in
           let* m := bop Rmult c x in
           bop Rplus acc m) (Sc 0) ps.
Fixpoint each {A B} (f : A -> result B) (l : list A) : result (list B) :=
  match l with [] => Ok [] | x :: t => let* y := f x in let* r := each f t in Ok (y :: r) end.
(* 243-252 *)
Definition mix (p : pattern) (T : R) (ps : list nu) : result (list nu) :=
  if existsb (fun A => if Rlt_dec T (Tdec A) then true else false) ps
  then each (fun A => let* c := mixed p ps A in Ok (set_coll c A)) ps
  else Ok ps.

(* 239-255 for a universe whose particles are the oscillating ones: mixing
   followed by update_distribution of every particle (ParticleModel). The
   collision integrals entering the mixing are finite here (fin_of). *)
From Verif Require EvolveModel ParticleModel.
Definition fin_of (x : EvolveModel.xr) : R := match x with EvolveModel.Fin r => r | _ => 0 end.
Definition values (n : nat) (x : arr) : list R := match x with Sc r => repeat r n | Ar l => l end.
Definition nu_of (fp : string * ParticleModel.particle) : nu :=
  mkNu (fst fp) (ParticleModel.Tdec (snd (snd fp))) (Ar (map fin_of (ParticleModel.scoll (snd (snd fp))))).
Definition with_coll (fp : string * ParticleModel.particle) (m : nu) : ParticleModel.particle :=
  let (c, s) := snd fp in
  (c, ParticleModel.set_coll (map EvolveModel.Fin (values (length (ParticleModel.scoll s)) (coll m))) s).
Definition update_one (e : ParticleModel.env) (q : ParticleModel.particle) : result ParticleModel.particle :=
  match ParticleModel.update_distribution e q with (q', None) => Ok q' | (_, Some x) => Raise x end.
Definition osc_update (p : pattern) (T : R) (e : ParticleModel.env) (l : list (string * ParticleModel.particle)) : result (list ParticleModel.particle) :=
  if existsb (fun fp => if Rlt_dec T (ParticleModel.Tdec (snd (snd fp))) then true else false) l
  then let* ms := mix p T (map nu_of l) in each (fun fm => update_one e (with_coll (fst fm) (snd fm))) (combine l ms)
  else each (fun fp => update_one e (snd fp)) l.
