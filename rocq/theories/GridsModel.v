(* Model of the momentum grids and table look-ups of common/__init__.py:220-440
   and of the C++ table look-up in interactions/{four,three}_particle/cpp/
   integral.cpp:1-116. Floats are reals. *)
From Coq Require Import Reals.
From Verif Require Import Base.
Open Scope R_scope.

(* common/__init__.py:222-226 and 249-253: `if not X` replaces None and 0 by
   the configured default *)
Definition or_default (v : option R) (d : R) : R :=
  match v with None => d | Some r => if Req_EM_T r 0 then d else r end.
Definition or_default_n (v : option nat) (d : nat) : nat :=
  match v with None => d | Some O => d | Some n => n end.

(* numpy.linspace(lo, hi, num=n, endpoint=True): step = (hi-lo)/(n-1), the last
   element is overwritten by hi *)
Definition linspace (lo hi : R) (n : nat) : list R :=
  match n with
  | O => []
  | S O => [lo]
  | S (S k) => map (fun i => lo + INR i * ((hi - lo) / INR (S k))) (seq 0 (S k)) ++ [hi]
  end.

(* 222-244; env_max, env_samples are the configured defaults *)
Definition linear_grid (env_max : R) (env_samples : nat) (samples : option nat) (mx : option R) : list R :=
  linspace 0 (or_default mx env_max) (or_default_n samples env_samples).

(* 249-269; for a single sample the denominator base^0 - 1 is zero and numpy
   yields NaN (0/0): modelled as None *)
Definition log_grid (env_max : R) (env_samples : nat) (samples : option nat) (mx : option R) : option (list R) :=
  let n := or_default_n samples env_samples in
  let mx := or_default mx env_max in
  let base := 12 / 10 in
  match n with
  | O => Some []
  | S O => None
  | S k => Some (map (fun i => 0 + (mx - 0) * (base ^ i - 1) / (base ^ k - 1)) (seq 0 n))
  end.

(* 272-292. `grid` is kept latest-first, i.e. already reversed (grid[::-1]).
   None: the loop has not finished after `fuel` iterations. *)
Definition heur_T (M aT c g : R) : R :=
  aT * M * (aT + g * c ^ 2 - sqrt (aT * (aT + 2 * g * c ^ 2))) / (2 * g ^ 2 * c ^ 2).
Definition heur_next (M aT c g : R) : R :=
  let T := heur_T M aT c g in Rmax (g - sqrt (M * T / c) * aT / T) 0.
Fixpoint heur_loop (M aT c : R) (fuel : nat) (grid : list R) : option (list R) :=
  match grid with
  | [] => Some []
  | g :: _ =>
      if Rlt_dec 0 g then
        match fuel with
        | O => None
        | S k => heur_loop M aT c k (heur_next M aT c g :: grid)
        end
      else Some grid
  end.
Definition heur_first (second M tau aT b : R) : R :=
  let H := (1 / 2) / second in
  let a_max := sqrt (2 * H * b * tau) in
  let T_max := aT / a_max in
  a_max * (M + sqrt (M * T_max)).
Definition heuristic_grid (second M tau aT b c : R) (fuel : nat) : option (list R) :=
  heur_loop M aT c fuel [heur_first second M tau aT b].

(* ------------------------------------------------------------------ *)
(* numpy.searchsorted on a sorted array, side left / right *)
Fixpoint searchsorted_left (grid : list R) (x : R) : nat :=
  match grid with
  | [] => O
  | g :: r => if Rlt_dec g x then S (searchsorted_left r x) else O
  end.
Fixpoint searchsorted_right (grid : list R) (x : R) : nat :=
  match grid with
  | [] => O
  | g :: r => if Rle_dec g x then S (searchsorted_right r x) else O
  end.

Definition rnth (l : list R) (i : nat) : R := nth i l 0.

(* 307-330; tables have the grid's length (shorter tables raise IndexError in
   Python and are not modelled) *)
Definition linear_interpolation (f grid : list R) (x : R) : R :=
  let index := searchsorted_left grid x in
  if (length grid - 1 <=? index)%nat then rnth f (length grid - 1)
  else if Req_EM_T x (rnth grid index) then rnth f index
  else
    let x_low := rnth grid index in
    let x_high := rnth grid (index + 1) in
    (rnth f index * (x_high - x) + rnth f (index + 1) * (x - x_low)) / (x_high - x_low).

(* 333-373 *)
Definition cubic_interpolation (f grid : list R) (x : R) : R :=
  let index := searchsorted_left grid x in
  if (length grid - 1 <=? index)%nat then rnth f (length grid - 1)
  else if Req_EM_T x (rnth grid index) then rnth f index
  else if (index =? 0)%nat || (index =? length grid - 2)%nat then
    let x_low := rnth grid index in
    let x_high := rnth grid (index + 1) in
    (rnth f index * (x_high - x) + rnth f (index + 1) * (x - x_low)) / (x_high - x_low)
  else
    let y0 := rnth f (index - 1) in
    let y1 := rnth f index in
    let y2 := rnth f (index + 1) in
    let y3 := rnth f (index + 2) in
    let a0 := - (1/2) * y0 + 3/2 * y1 - 3/2 * y2 + 1/2 * y3 in
    let a1 := y0 - 5/2 * y1 + 2 * y2 - 1/2 * y3 in
    let a2 := - (1/2) * y0 + 1/2 * y2 in
    let a3 := y1 in
    let mu := (x - rnth grid index) / (rnth grid (index + 1) - rnth grid index) in
    a0 * mu * mu * mu + a1 * mu * mu + a2 * mu + a3.

(* common/__init__.py:376-391. `x in temp` with numpy.where gives the position
   of x (unique on a strictly increasing grid); an empty grid raises IndexError. *)
Fixpoint position (grid : list R) (x : R) : option nat :=
  match grid with
  | [] => None
  | g :: r => if Req_EM_T g x then Some O else option_map S (position r x)
  end.
Definition py_binary_find (grid : list R) (x : R) : result (Z * Z) :=
  match grid with
  | [] => Raise IndexError
  | g0 :: _ =>
      let tail := (length grid - 1)%nat in
      if Rlt_dec (last grid 0) x then Ok (Z.of_nat tail, (-1)%Z)
      else if Rlt_dec x g0 then Ok ((-1)%Z, 0%Z)
      else match position grid x with
           | Some i => Ok (Z.of_nat i, Z.of_nat i)
           | None => let k := searchsorted_right grid x in Ok ((Z.of_nat k - 1)%Z, Z.of_nat k)
           end
  end.

(* integral.cpp:9-38. Indices are C ints; the loop is fuelled, None = fuel
   exhausted. An empty grid is undefined behaviour in C++ (index -1): None. *)
Fixpoint cpp_search (fuel : nat) (grid : list R) (x : R) (head tail : nat) : option (nat * nat) :=
  if (1 <? tail - head)%nat then
    match fuel with
    | O => None
    | S k =>
        let middle := Nat.div (tail + head) 2 in
        if Rlt_dec x (rnth grid middle) then cpp_search k grid x head middle
        else cpp_search k grid x middle tail
    end
  else Some (head, tail).
Definition cpp_binary_find (fuel : nat) (grid : list R) (x : R) : option (Z * Z) :=
  match grid with
  | [] => None
  | _ =>
      let head := O in
      let tail := (length grid - 1)%nat in
      if Rlt_dec (rnth grid tail) x then Some (Z.of_nat tail, (-1)%Z)
      else if Rlt_dec x (rnth grid head) then Some ((-1)%Z, Z.of_nat head)
      else match cpp_search fuel grid x head tail with
           | None => None
           | Some (h, t) =>
               if Req_EM_T (rnth grid t) x then Some (Z.of_nat t, Z.of_nat t)
               else if Req_EM_T (rnth grid h) x then Some (Z.of_nat h, Z.of_nat h)
               else Some (Z.of_nat h, Z.of_nat t)
           end
  end.

(* integral.cpp:4-6 *)
Definition energy (y mass : R) : R := sqrt (y * y + mass * mass).

(* integral.cpp:75-105, the interpolation between two nodes. A tabulated zero
   gives 1/0 = inf in C++, whose logarithm is inf, and the result is 0 on every
   path. For non-negative tables exp(g)+eta is never 0, so no other infinity
   or NaN appears. *)
Definition interp_cell (E_p E_lo E_hi f_lo f_hi eta : R) : R :=
  if Req_EM_T f_hi 0 then 0 else
  if Req_EM_T f_lo 0 then 0 else
  let g_hi := 1 / f_hi - eta in
  if Rlt_dec 0 g_hi then
    let g_lo := 1 / f_lo - eta in
    if Rlt_dec 0 g_lo then
      let g := ((E_p - E_lo) * ln g_hi + (E_hi - E_p) * ln g_lo) / (E_hi - E_lo) in
      1 / (exp g + eta)
    else 0
  else 0.

(* integral.cpp:41-108 (also three_particle, and common/__init__.py:394-440 in
   Python). Fuel for the search: the grid's length always suffices
   (C45). The in_equilibrium value for a boson of zero energy is 1/0 = inf. *)
Definition distribution_interpolation (grid dist : list R) (p m eta T : R) (in_equilibrium : bool) : result R :=
  if in_equilibrium then Ok (1 / (exp (energy p m / T) + eta))
  else match cpp_binary_find (length grid) grid p with
       | None => Raise IndexError
       | Some (i_lo, i_hi) =>
           if (i_lo =? -1)%Z then Raise RuntimeError
           else if (i_hi =? -1)%Z then
             Ok (rnth dist (length grid - 1) * exp ((energy (rnth grid (length grid - 1)) m - energy p m) / T))
           else if (i_lo =? i_hi)%Z then Ok (rnth dist (Z.to_nat i_lo))
           else Ok (interp_cell (energy p m) (energy (rnth grid (Z.to_nat i_lo)) m) (energy (rnth grid (Z.to_nat i_hi)) m)
                      (rnth dist (Z.to_nat i_lo)) (rnth dist (Z.to_nat i_hi)) eta)
       end.

(* common/__init__.py:394-440: the Python twin; max_momentum is
   particle.grid.MAX_MOMENTUM. `not isfinite` replaces NaN/inf by 0. *)
Definition py_interp (grid dist : list R) (max_momentum p m eta T : R) (in_equilibrium : bool) : result R :=
  if in_equilibrium then Ok (1 / (exp (energy p m / T) + eta))
  else match py_binary_find grid p with
       | Raise e => Raise e
       | Ok (i_lo, i_hi) =>
           if (i_lo =? -1)%Z then Raise ValueError
           else if (i_hi =? -1)%Z then
             Ok (last dist 0 * exp ((energy max_momentum m - energy p m) / T))
           else if (i_lo =? i_hi)%Z then Ok (rnth dist (Z.to_nat i_lo))
           else Ok (interp_cell (energy p m) (energy (rnth grid (Z.to_nat i_lo)) m) (energy (rnth grid (Z.to_nat i_hi)) m)
                      (rnth dist (Z.to_nat i_lo)) (rnth dist (Z.to_nat i_hi)) eta)
       end.
