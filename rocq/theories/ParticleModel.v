(* Model of particles/__init__.py (regimes, decoupling, distribution updates)
   and of the part of one evolution step that drives it (evolution.py:181-255).
   Temperatures, momenta and parameters are reals; distributions and collision
   integrals are lists of xr, the float values including infinities and NaN
   (EvolveModel). Float arithmetic is exact, without overflow. *)
From Coq Require Import Reals.
From Verif Require Import Base EvolveModel IntegratorsModel.
Open Scope R_scope.

(* IEEE addition, multiplication by a finite number, numpy.maximum(x, 0) *)
Definition xadd (x y : xr) : xr :=
  match x, y with
  | NaN, _ | _, NaN => NaN
  | Fin a, Fin b => Fin (a + b)
  | Fin _, i => i
  | i, Fin _ => i
  | PInf, PInf => PInf
  | NInf, NInf => NInf
  | _, _ => NaN
  end.
Definition xscale (h : R) (x : xr) : xr :=
  match x with
  | Fin a => Fin (a * h)
  | NaN => NaN
  | PInf => if Req_EM_T h 0 then NaN else if Rlt_dec 0 h then PInf else NInf
  | NInf => if Req_EM_T h 0 then NaN else if Rlt_dec 0 h then NInf else PInf
  end.
Definition xmax0 (x : xr) : xr :=
  match x with
  | Fin a => if Rlt_dec a 0 then Fin 0 else Fin a
  | NInf => Fin 0
  | PInf => PInf
  | NaN => NaN
  end.
Definition isnan (x : xr) : bool := match x with NaN => true | _ => false end.
Definition isfinite (x : xr) : bool := match x with Fin _ => true | _ => false end.
Fixpoint zip2 {A B C} (f : A -> B -> C) (l : list A) (m : list B) : list C :=
  match l, m with a :: l', b :: m' => f a b :: zip2 f l' m' | _, _ => [] end.

(* the attributes of Params read by particles *)
Record env := mkEnv { ea : R; et : R; eT : R; eaT : R; eh : R; ea_ini : R }.

(* attributes fixed at construction. `charge` is the attribute Q, which not
   every particle has; `lifetime` is present for particles with fast_decay *)
Record config := mkConfig { cmass : R; thermal_dyn : bool; ceta : R; charge : option R; fast_decay : option R; template : list R }.
(* attributes that change. rows_f: len(data['distribution']); ts: column
   data['params']['t']; densities: column data['params']['density'] *)
Record state := mkState {
  sT : R; saT : R; Tdec : R; t_decoupling : R; sdist : list xr; scoll : list xr; cints : list nat; decayed : bool;
  coll_hist : list (list xr); rows_f : nat; ts : list R; densities : list R; sdensity : R }.
Definition particle : Type := config * state.
Definition set_dist (d : list xr) (s : state) : state :=
  mkState (sT s) (saT s) (Tdec s) (t_decoupling s) d (scoll s) (cints s) (decayed s) (coll_hist s) (rows_f s) (ts s) (densities s) (sdensity s).
Definition set_coll (c : list xr) (s : state) : state :=
  mkState (sT s) (saT s) (Tdec s) (t_decoupling s) (sdist s) c (cints s) (decayed s) (coll_hist s) (rows_f s) (ts s) (densities s) (sdensity s).
Definition set_cints (l : list nat) (s : state) : state :=
  mkState (sT s) (saT s) (Tdec s) (t_decoupling s) (sdist s) (scoll s) l (decayed s) (coll_hist s) (rows_f s) (ts s) (densities s) (sdensity s).
Definition set_aT (x : R) (s : state) : state :=
  mkState (sT s) x (Tdec s) (t_decoupling s) (sdist s) (scoll s) (cints s) (decayed s) (coll_hist s) (rows_f s) (ts s) (densities s) (sdensity s).
Definition set_T (x : R) (s : state) : state :=
  mkState x (saT s) (Tdec s) (t_decoupling s) (sdist s) (scoll s) (cints s) (decayed s) (coll_hist s) (rows_f s) (ts s) (densities s) (sdensity s).
Definition set_tdec (x : R) (s : state) : state :=
  mkState (sT s) (saT s) (Tdec s) x (sdist s) (scoll s) (cints s) (decayed s) (coll_hist s) (rows_f s) (ts s) (densities s) (sdensity s).
Definition set_decayed (s : state) : state :=
  mkState (sT s) (saT s) (Tdec s) (t_decoupling s) (sdist s) (scoll s) (cints s) true (coll_hist s) (rows_f s) (ts s) (densities s) (sdensity s).

(* 144-146: (T > decoupling_temperature) * thermal_dyn *)
Definition in_equilibrium (c : config) (s : state) : bool := (if Rlt_dec (Tdec s) (sT s) then true else false) && thermal_dyn c.

(* 26-43, 116-141 *)
Inductive regime := RADIATION | INTERMEDIATE | DUST | NONEQ.
Definition regime_of (factor : R) (c : config) (s : state) : regime :=
  if negb (in_equilibrium c s) then NONEQ
  else if Rlt_dec (cmass c * factor) (sT s) then RADIATION
  else if Rlt_dec (sT s * factor) (cmass c) then DUST
  else INTERMEDIATE.

(* 161-174 *)
Definition conformal_energy (c : config) (y m : R) : R := if Rlt_dec 0 (cmass c) then sqrt (y ^ 2 + m ^ 2) else Rabs y.
(* 376-386 with common/statistics.py:4-19; numpy: 1/0. = inf, and for aT = 0
   the exponent is inf (or NaN for a zero energy) *)
Definition eq_value (c : config) (aT m y : R) : xr :=
  let E := conformal_energy c y m in
  if Req_EM_T aT 0 then (if Req_EM_T E 0 then NaN else Fin 0)
  else let d := exp (E / aT) + ceta c in if Req_EM_T d 0 then PInf else Fin (1 / d).
(* 388-395; conf_mass=None means conformal_mass = mass * params.a (176-179) *)
Definition init_distribution (c : config) (e : env) (aT : R) : list xr :=
  if thermal_dyn c then map (eq_value c aT (cmass c * ea e)) (template c) else map (fun _ => Fin 0) (template c).
Definition zeros (c : config) : list xr := map (fun _ => Fin 0) (template c).

(* 215-253. `dens` stands for the densities computed by populate_methods
   (107-115, see ThermoModel); printing is not modelled. *)
Definition update (dens : config -> state -> env -> R) (e : env) (p : particle) : result particle :=
  let (c, s) := p in
  let oldeq := in_equilibrium c s in
  let* refresh := (if oldeq then Ok true
                   else if thermal_dyn c then Ok false
                   else match charge c with None => Raise AttributeError | Some q => Ok (if Req_EM_T q 0 then false else true) end) in
  let s := if refresh : bool then set_aT (eaT e) (set_dist (init_distribution c e (saT s)) s) else s in
  let s := set_T (saT s / ea e) s in
  let s := if oldeq && negb (in_equilibrium c s) then set_dist (init_distribution c e (saT s)) (set_tdec (et e) s) else s in
  let s := set_coll (zeros c) s in
  let d := dens c s e in
  Ok (c, mkState (sT s) (saT s) (Tdec s) (t_decoupling s) (sdist s) (scoll s) (cints s) (decayed s) (coll_hist s) (rows_f s)
        (ts s ++ [et e]) (densities s ++ [d]) d).

(* 190-205, called once; 71-75 and 208-213 give the initial attribute values *)
Definition set_params (dens : config -> state -> env -> R) (e : env) (c : config) (decoupling_temperature : R) : result particle :=
  let td := if thermal_dyn c then decoupling_temperature else if Req_EM_T decoupling_temperature 0 then eT e else decoupling_temperature in
  let s := mkState (eT e) (eaT e) td 0 (init_distribution c e (eaT e)) (zeros c) [] false [] 1 [] [] 0 in
  update dens e (c, s).

(* 255-283. The second component is the exception raised, if any; the state
   is what is left behind. exp and division are as in eq_value. *)
Definition update_distribution (e : env) (p : particle) : particle * option exn :=
  let (c, s) := p in
  if in_equilibrium c s then (p, None)
  else
    let coll := map (fun x => if isnan x then Fin 0 else x) (scoll s) in
    let s := set_coll coll s in
    if negb (forallb isfinite coll) then ((c, s), Some AssertionError)
    else
      let done (s : state) :=
        let d := map xmax0 (sdist s) in
        ((c, mkState (sT s) (saT s) (Tdec s) (t_decoupling s) d (scoll s) [] (decayed s) (coll_hist s ++ [coll]) (S (rows_f s)) (ts s) (densities s) (sdensity s)), None) in
      match fast_decay c with
      | None => done (set_dist (zip2 (fun f x => xadd f (xscale (eh e) x)) (sdist s) coll) s)
      | Some lifetime =>
          match (if Req_EM_T (t_decoupling s) 0 then match nth_error (ts s) 1 with Some t => Ok t | None => Raise IndexError end else Ok (t_decoupling s)) with
          | Raise x => ((c, s), Some x)
          | Ok td =>
              let s := set_tdec td s in
              if thermal_dyn c
              then done (set_dist (map (fun y => xscale (exp (- (et e - td) / lifetime)) (eq_value c (saT s) (cmass c * saT s / Tdec s) y)) (template c)) s)
              else done (set_dist (zeros c) s)
          end
      end.

(* common/kinematics.py:376-385: the condition; STERILE_DECAYED is not read by
   any modelled code. data['params']['density'][0] of an empty column would
   raise, but update has always recorded a row before. *)
Definition decay_condition (c : config) (s : state) (e : env) : bool :=
  match densities s with
  | [] => false
  | d0 :: _ =>
      (1 <? rows_f s)%nat && (if Req_EM_T (cmass c) 0 then false else true) && (if Req_EM_T d0 0 then false else true)
      && (if Rlt_dec (sdensity s / d0) (/ 10 ^ 10 * (ea_ini e / 10) ^ 3) then true else false)
      && match fast_decay c with None => true | Some _ => false end
  end.

(* what integral.integrate returned (301-312): Full kinds give a pair, the
   decay kinds one vector that is used twice, the others one vector *)
Inductive output := OFull (C B : list R) | ODecay (G : list R) | OOther (G : list R).
Definition vec_at (k : nat) (l : list R) : R := nth k l 0.
Definition AB_at (k : nat) (outs : list output) : R :=
  fold_right Rplus 0 (map (fun o => match o with OFull C _ => vec_at k C | ODecay G => vec_at k G | OOther G => vec_at k G end) outs).
Definition B_at (k : nat) (outs : list output) : R :=
  fold_right Rplus 0 (map (fun o => match o with OFull _ B => vec_at k B | ODecay G => vec_at k G | OOther _ => 0 end) outs).
(* 317-321, one grid point; y is self.distribution at that point, which on the
   particle's own grid is the stored value (C47); hist is the column of
   data['collision_integral'] *)
Definition solver_at (k : nat) (outs : list output) (y : R) (hist : list R) (h : R) : result R :=
  adams_moulton y (py_suffix hist (- MAX_AM)) (AB_at k outs) (B_at k outs) h None.

(* 288-339. integrate: outcome of the whole loop over the integrals (already
   passed through solver_at) or of Icoll_fast_decay. *)
Definition collide (integrate : config -> state -> list nat -> result (list xr)) (e : env) (p : particle) : result particle :=
  let (c, s) := p in
  match cints s with
  | [] => Ok (c, set_coll (zeros c) s)
  | ids =>
      if decayed s then Ok (c, set_coll (zeros c) s)
      else if decay_condition c s e then Ok (c, set_coll (zeros c) (set_dist (zeros c) (set_decayed s)))
      else let* v := integrate c s ids in Ok (c, set_coll v s)
  end.

(* ------------------------------------------------------------------ *)
(* One step, evolution.py:209-255. Integrals are numbered; each belongs to the
   particle at a given position of universe.particles. *)
Definition integral_ref : Type := nat * nat.     (* (integral, particle) *)
(* four_particle/__init__.py:92-97, three_particle/__init__.py:45-51 *)
Definition initialize_one (e : env) (ps : list particle) (i : integral_ref) : list particle :=
  match nth_error ps (snd i) with
  | None => ps
  | Some (c, s) =>
      if (if Rlt_dec (eT e) (Tdec s) then true else false) && negb (in_equilibrium c s)
      then set_nth (snd i) (c, set_cints (cints s ++ [fst i]) s) ps else ps
  end.
Definition init_interactions (e : env) (interactions : list (list integral_ref)) (ps : list particle) : list particle :=
  fold_left (initialize_one e) (concat interactions) ps.
Fixpoint each {A} (f : A -> result A) (l : list A) : result (list A) :=
  match l with [] => Ok [] | x :: t => let* y := f x in let* r := each f t in Ok (y :: r) end.
(* 226-237 *)
Definition calculate_collisions integrate (e : env) (ps : list particle) : result (list particle) :=
  each (fun p => match cints (snd p) with [] => Ok p | _ => collide integrate e p end) ps.
(* 239-255; mix is the effect of the oscillation block on the collision
   integrals (OscModel) *)
Definition update_distributions (mix : list particle -> list particle) (e : env) (ps : list particle) : result (list particle) :=
  each (fun p => match update_distribution e p with (q, None) => Ok q | (_, Some x) => Raise x end) (mix ps).
(* 286-293; the first component lists the integrals handed to each particle *)
Definition step dens integrate mix (e : env) (interactions : list (list integral_ref)) (ps : list particle) : result (list (list nat) * list particle) :=
  let* ps := each (update dens e) ps in
  let ps := init_interactions e interactions ps in
  let used := map (fun p => cints (snd p)) ps in
  let* ps := calculate_collisions integrate e ps in
  let* ps := update_distributions mix e ps in
  Ok (used, ps).
Fixpoint steps dens integrate mix (es : list env) (interactions : list (list integral_ref)) (ps : list particle) : result (list (list (list nat)) * list particle) :=
  match es with
  | [] => Ok ([], ps)
  | e :: es' =>
      let* r := step dens integrate mix e interactions ps in
      let* r' := steps dens integrate mix es' interactions (snd r) in
      Ok (fst r :: fst r', snd r')
  end.
