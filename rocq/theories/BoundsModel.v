(* Model of interactions/four_particle/cpp/integral.cpp:230-698 and
   interactions/three_particle/cpp/integral.cpp:248-555: the integrands, their
   kinematic cut-offs, the integration limits and the parallel loops.
   Doubles are reals; the result of a square root is None (NaN) for a negative
   argument. GSL's adaptive quadrature is a parameter. The occupation of a
   species at a momentum (distribution_interpolation, see GridsModel) is a
   function of the momentum. *)
From Coq Require Import Reals.
From Verif Require Import Base FunctionalModel DsModel.
Open Scope R_scope.

(* integral.cpp:4-6 *)
Definition energy (y m : R) : R := sqrt (y ^ 2 + m ^ 2).
(* C sqrt *)
Definition csqrt (x : R) : option R := if Rlt_dec x 0 then None else Some (sqrt x).

(* four_particle/cpp/integral.h:38-80 *)
Record matrix_element := mkM { order : nat * nat * nat * nat; K1 : R; K2 : R; K : R }.
Record participant := mkParticipant { mass : R; plg : leg; occ : R -> result R }.

(* four_particle/cpp/integral.cpp:230-246 *)
Definition in_bounds4 (p E m : nat -> R) : bool :=
  let '(q1, q2, q3, q4) := (p 0%nat, p 1%nat, p 2%nat, p 3%nat) in
  let '(q1, q2) := if Rlt_dec q1 q2 then (q2, q1) else (q1, q2) in
  let '(q3, q4) := if Rlt_dec q3 q4 then (q4, q3) else (q3, q4) in
  if Rle_dec (m 3%nat) (E 3%nat) then
    if Rle_dec q1 (q2 + q3 + q4) then if Rle_dec q3 (q1 + q2 + q4) then true else false else false
  else false.
(* three_particle/cpp/integral.cpp:248-265 *)
Definition in_bounds3 (p : nat -> R) : R :=
  let '(q1, q2, q3) := sort3 (p 0%nat) (p 1%nat) (p 2%nat) in
  sgn (q1 + q2 - q3) + sgn (q1 - q2 + q3) - sgn (q1 - q2 - q3) - sgn (q1 + q2 + q3).

Definition sides_of (rs : nat -> participant) (n : nat) : Z := side (plg (rs n)).
Definition masses_of (rs : nat -> participant) (n : nat) : R := mass (rs n).

(* the loop filling f, 316-320 *)
Fixpoint occupations (rs : nat -> participant) (p : nat -> R) (k n : nat) : result (list R) :=
  match n with
  | O => Ok []
  | S n' => let* x := occ (rs k) (p k) in let* l := occupations rs p (S k) n' in Ok (x :: l)
  end.
Definition legs (rs : nat -> participant) (n : nat) : list leg := map (fun k => plg (rs k)) (seq 0 n).

(* four_particle/cpp/integral.cpp:249-348. Ms[0] is M, the others Ms. *)
Definition momenta4 (rs : nat -> participant) (p0 p1 p2 : R) : option ((nat -> R) * (nat -> R)) :=
  let m := masses_of rs in
  let s n := IZR (sides_of rs n) in
  let E j := match j with O => energy p0 (m 0%nat) | 1%nat => energy p1 (m 1%nat) | _ => energy p2 (m 2%nat) end in
  let E3 := (0 + s 0%nat * E 0%nat + s 1%nat * E 1%nat + s 2%nat * E 2%nat) * - s 3%nat in
  if Rlt_dec E3 (m 3%nat) then None else
  Some (fun n => match n with O => p0 | 1%nat => p1 | 2%nat => p2 | _ => sqrt (E3 ^ 2 - m 3%nat ^ 2) end,
        fun n => match n with 0%nat | 1%nat | 2%nat => E n | _ => E3 end).
Definition velocity (p m : R) : R := if Req_EM_T m 0 then 1 else p / energy p m.
Definition kernel (p E m : nat -> R) (sides : nat -> Z) (M : matrix_element) (Ms : list matrix_element) : R :=
  if Req_EM_T (K M) 0 then
    if Req_EM_T (p 0%nat) 0 then fold_left (fun ds M => ds + Db p E m (K1 M) (K2 M) (order M) sides) (M :: Ms) 0
    else fold_left (fun ds M => ds + Dfun p E m (K1 M) (K2 M) (order M) sides) (M :: Ms) 0 / (p 0%nat * E 0%nat)
  else 0 + K M.
Definition integrand4 (rs : nat -> participant) (M : matrix_element) (Ms : list matrix_element) (k : kind) (p0 p1 p2 : R) : result R :=
  match momenta4 rs p0 p1 p2 with
  | None => Ok 0
  | Some (p, E) =>
      let m := masses_of rs in
      if in_bounds4 p E m then
        let temp := velocity p1 (m 1%nat) * velocity p2 (m 2%nat) in
        if Req_EM_T temp 0 then Ok 0 else
        let temp := temp * kernel p E m (sides_of rs) M Ms in
        if Req_EM_T temp 0 then Ok 0 else
        let* f := occupations rs p 0 4 in
        let* F := functional k (legs rs 4) f in Ok (temp * F)
      else Ok 0
  end.

(* integral.h:24-28, integral.cpp:351-357 (three_particle 377-383): the sum of
   the sides; a value outside the enumeration matches none of the branches *)
Definition side_sum (rs : nat -> participant) (n : nat) : Z := fold_left (fun z k => (z + sides_of rs k)%Z) (seq 0 n) 0%Z.
Definition DECAY := 2%Z.
Definition SCATTERING := 0%Z.
Definition CREATION := (-2)%Z.

(* limits used in several branches: `max <= 0 || max2 <= 0` *)
Definition root_or (d : option R) (e m : R) : option R :=
  if Rle_dec e 0 then d else if Rle_dec (e ^ 2 - m ^ 2) 0 then d else Some (sqrt (e ^ 2 - m ^ 2)).

(* 389-399 *)
Definition p2_max_dec (m : nat -> R) (p0 p1 : R) : option R :=
  csqrt ((energy p0 (m 0%nat) - energy p1 (m 1%nat) - m 3%nat) ^ 2 - m 2%nat ^ 2).
(* 421-474 *)
Definition scat_root (m : nat -> R) (p1 : R) : option R :=
  let temp1 := m 0%nat + sqrt (m 1%nat ^ 2 + p1 ^ 2) in
  let temp2 := m 3%nat ^ 2 + p1 ^ 2 in
  csqrt (temp1 ^ 2 * (temp1 ^ 4 + temp2 ^ 2 + (4 * p1 ^ 2 - 2 * temp2 + m 2%nat ^ 2) * m 2%nat ^ 2
                      - 2 * temp1 ^ 2 * (temp2 + m 2%nat ^ 2))).
Definition scat_temp (m : nat -> R) (p1 : R) : R :=
  let temp := (p1 ^ 2 + m 1%nat ^ 2) * (m 1%nat ^ 4 + (m 2%nat ^ 2 - m 3%nat ^ 2) ^ 2 - 2 * m 1%nat ^ 2 * (m 2%nat ^ 2 + m 3%nat ^ 2)) in
  if Rlt_dec temp 0 then 0 else temp.
Definition all_zero (a b c : R) : bool :=
  if Req_EM_T a 0 then if Req_EM_T b 0 then if Req_EM_T c 0 then true else false else false else false.
(* std::max(NaN, 0.) returns its first argument: NaN *)
Definition omax0 (x : option R) : option R := option_map (fun x => Rmax x 0) x.
Definition p2_min_scat (m : nat -> R) (p0 p1 : R) : option R :=
  let '(m0, m1, m2, m3) := (m 0%nat, m 1%nat, m 2%nat, m 3%nat) in
  if Req_EM_T p0 0 then
    if Req_EM_T m0 0 then
      if Req_EM_T m1 0 then Some 0 else
      let temp1 := (- p1 * (m1 ^ 2 + m2 ^ 2 - m3 ^ 2) + sqrt (scat_temp m p1)) / (2 * m1 ^ 2) in
      Some (Rmax temp1 (- temp1))
    else if all_zero m1 m2 m3 then Some (m0 / 2)
    else if Rlt_dec (m2 + m3) (m0 + m1) then
      let temp1 := m0 + sqrt (m1 ^ 2 + p1 ^ 2) in
      let temp2 := m3 ^ 2 + p1 ^ 2 in
      omax0 (option_map (fun r => ((temp2 - temp1 ^ 2 - m2 ^ 2) * p1 + r) / (2 * (temp1 ^ 2 - p1 ^ 2))) (scat_root m p1))
    else Some 0
  else Some 0.
(* 476-539 *)
Definition p2_max_scat (m : nat -> R) (p0 p1 : R) : option R :=
  let '(m0, m1, m2, m3) := (m 0%nat, m 1%nat, m 2%nat, m 3%nat) in
  if Req_EM_T p0 0 then
    if Req_EM_T m0 0 then
      if Req_EM_T m1 0 then Some p1 else
      Some ((p1 * (m1 ^ 2 + m2 ^ 2 - m3 ^ 2) + sqrt (scat_temp m p1)) / (2 * m1 ^ 2))
    else if all_zero m1 m2 m3 then Some ((m0 + 2 * p1) / 2)
    else if Rlt_dec (m2 + m3) (m0 + m1) then
      let temp1 := m0 + sqrt (m1 ^ 2 + p1 ^ 2) in
      let temp2 := m3 ^ 2 + p1 ^ 2 in
      omax0 (option_map (fun r => ((- temp2 + temp1 ^ 2 + m2 ^ 2) * p1 + r) / (2 * (temp1 ^ 2 - p1 ^ 2))) (scat_root m p1))
    else csqrt ((m0 - m3 + energy p1 m1) ^ 2 - m2 ^ 2)
  else csqrt ((energy p0 m0 + energy p1 m1 - m3) ^ 2 - m2 ^ 2).

(* 542-577: the limits of the inner integral. None: the branch returns 0 before
   integrating. *)
Definition p2_limits (rs : nat -> participant) (min_2 max_2 : option R) (max_3 p0 p1 : R) : option (option R * option R) :=
  let m := masses_of rs in
  let t := side_sum rs 4 in
  let '(min_2, max_2) := if (t =? DECAY)%Z then (Some 0, p2_max_dec m p0 p1) else (min_2, max_2) in
  let '(min_2, max_2) := if (t =? SCATTERING)%Z then (p2_min_scat m p0 p1, p2_max_scat m p0 p1) else (min_2, max_2) in
  if (t =? CREATION)%Z then
    let max := energy max_3 (m 3%nat) - energy p0 (m 0%nat) - energy p1 (m 1%nat) in
    let min := m 3%nat - energy p0 (m 0%nat) - energy p1 (m 1%nat) in
    match root_or None max (m 2%nat) with
    | None => None
    | Some r => Some (root_or (Some 0) min (m 2%nat), Some r)
    end
  else Some (min_2, max_2).

(* 617-651: what one iteration of the parallel loop does to the thread's copies
   of min_1 and max_1, and the limits it integrates between. None: `continue`. *)
Definition p1_step (rs : nat -> participant) (max_3 : R) (st : option R * option R) (p0 : R) :
    (option R * option R) * option (option R * option R) :=
  let m := masses_of rs in
  let t := side_sum rs 4 in
  let '(min_1, max_1) := st in
  let '(min_1, max_1) :=
    if (t =? DECAY)%Z
    then (min_1, csqrt ((energy p0 (m 0%nat) - m 2%nat - m 3%nat) ^ 2 - m 1%nat ^ 2)) else (min_1, max_1) in
  let '(min_1, max_1) :=
    if (t =? SCATTERING)%Z then
      let min_1 := match root_or (Some 0) (m 2%nat + m 3%nat - energy p0 (m 0%nat)) (m 1%nat) with Some x => x | None => 0 end in
      (Some min_1, match max_1 with
                   | Some x => if Rlt_dec (3 * min_1) x then Some x else Some (3 * min_1)
                   | None => Some (3 * min_1)
                   end)
    else (min_1, max_1) in
  if (t =? CREATION)%Z then
    if Req_EM_T (m 3%nat) 0 then ((min_1, max_1), None) else
    match root_or None (energy max_3 (m 3%nat) - m 2%nat - energy p0 (m 0%nat)) (m 1%nat) with
    | None => ((min_1, max_1), None)
    | Some r => ((Some 0, Some r), Some (Some 0, Some r))
    end
  else ((min_1, max_1), Some (min_1, max_1)).

(* three_particle/cpp/integral.cpp:268-374 *)
Definition momenta3 (rs : nat -> participant) (p0 p1 : R) : option ((nat -> R) * (nat -> R)) :=
  let m := masses_of rs in
  let s n := IZR (sides_of rs n) in
  let E j := match j with O => energy p0 (m 0%nat) | _ => energy p1 (m 1%nat) end in
  let E2 := (0 + s 0%nat * E 0%nat + s 1%nat * E 1%nat) * - s 2%nat in
  if Rlt_dec E2 (m 2%nat) then None else
  Some (fun n => match n with O => p0 | 1%nat => p1 | _ => sqrt (E2 ^ 2 - m 2%nat ^ 2) end,
        fun n => match n with 0%nat | 1%nat => E n | _ => E2 end).
Definition integrand3 (rs : nat -> participant) (k : kind) (p0 p1 : R) : result R :=
  match momenta3 rs p0 p1 with
  | None => Ok 0
  | Some (p, E) =>
      let m := masses_of rs in
      let temp := if Req_EM_T p0 0 then p1
                  else in_bounds3 p * velocity p1 (m 1%nat) / (p0 * energy p0 (m 0%nat)) in
      if Req_EM_T temp 0 then Ok 0 else
      let* f := occupations rs p 0 3 in
      let* F := functional k (legs rs 3) f in Ok (temp * F)
  end.
Definition CREATION3 := (-1)%Z.
(* 408-422 *)
Definition p1_bounds_1 (m : nat -> R) : option R :=
  if Req_EM_T (m 0%nat) 0 then Some 0 else
  option_map (fun r => r / (2 * m 0%nat))
    (csqrt ((m 0%nat ^ 2 - m 1%nat ^ 2 - m 2%nat ^ 2) ^ 2 - 4 * m 1%nat ^ 2 * m 2%nat ^ 2)).
(* 424-437; integration_3 calls it with p0 <> 0 *)
Definition p1_bounds_2 (m : nat -> R) (p0 : R) : R :=
  (m 1%nat ^ 4 + m 2%nat ^ 4 - 2 * m 1%nat ^ 2 * (m 2%nat ^ 2 + 2 * p0 ^ 2)) / (4 * p0 * (m 1%nat ^ 2 - m 2%nat ^ 2)).
(* 439-459 *)
Definition p1_bounds_3 (m : nat -> R) (p0 sign1 sign2 : R) : R :=
  let '(m0, m1, m2) := (m 0%nat, m 1%nat, m 2%nat) in
  let temp1 := (p0 ^ 2 + m0 ^ 2) * (m1 ^ 4 + (m2 ^ 2 - m0 ^ 2) ^ 2 - 2 * m1 ^ 2 * (m2 ^ 2 + m0 ^ 2)) in
  let temp1 := if Rlt_dec temp1 0 then 0 else temp1 in
  let temp2 := p0 * (m2 ^ 2 - m1 ^ 2 - m0 ^ 2) in
  (sign1 * temp2 + sign2 * sqrt temp1) / (2 * m0 ^ 2).
(* 462-474; -1 is None *)
Definition p1_bounds_4 (m : nat -> R) (p0 max_2 : R) : option R :=
  root_or None (energy max_2 (m 2%nat) - energy p0 (m 0%nat)) (m 1%nat).

(* 495-522: one iteration of the loop of integration_3 at p0 <> 0. None:
   `continue`. *)
Definition p1_step3 (rs : nat -> participant) (max_2 : R) (st : R * R) (p0 : R) : (R * R) * option (R * R) :=
  let m := masses_of rs in
  let '(min_1, max_1) := st in
  if (side_sum rs 3 =? CREATION3)%Z then
    let min := if Req_EM_T (m 0%nat) 0 then p1_bounds_2 m p0 else p1_bounds_3 m p0 (-1) 1 in
    let min_1 := Rmax min (- min) in
    match p1_bounds_4 m p0 max_2 with
    | None => ((min_1, max_1), None)
    | Some temp =>
        let max_1 := if Req_EM_T (m 0%nat) 0 then temp else Rmin (p1_bounds_3 m p0 1 1) temp in
        ((min_1, max_1), if Rle_dec max_1 min_1 then None else Some (min_1, max_1))
    end
  else
    let min := p1_bounds_3 m p0 1 1 in
    let min_1 := Rmax min (- min) in
    let max_1 := p1_bounds_3 m p0 (-1) 1 in
    ((min_1, max_1), Some (min_1, max_1)).

(* The OpenMP loops 617-695 and 490-551. `step` is the effect of an iteration on
   the thread's private copies and the limits it uses, `value` the quadrature.
   A trace lists the iterations in the order they are executed, each with the
   thread that runs it: every number of threads, assignment and interleaving. *)
Fixpoint run {St Lim : Type} (step : St -> R -> St * option Lim) (value : R -> Lim -> R) (ps : list R) (priv : nat -> St) (trace : list (nat * nat)) (integral : list R) : list R :=
  match trace with
  | [] => integral
  | (thread, i) :: trace' =>
      let p0 := nth i ps 0 in
      let '(st, lim) := step (priv thread) p0 in
      let integral := match lim with
                      | None => integral
                      | Some l => set_nth i (nth i integral 0 + value p0 l) integral
                      end in
      run step value ps (fun t => if (t =? thread)%nat then st else priv t) trace' integral
  end.
Definition integration4 (value : R -> option R * option R -> R) (rs : nat -> participant) (min_1 max_1 max_3 : R)
    (ps : list R) (trace : list (nat * nat)) : list R :=
  run (p1_step rs max_3) value ps (fun _ => (Some min_1, Some max_1)) trace (map (fun _ => 0) ps).
(* at p0 = 0 the loop of integration_3 evaluates the integrand once, 492-495 *)
Definition step3 (rs : nat -> participant) (max_2 : R) (st : R * R) (p0 : R) : (R * R) * option (option (R * R)) :=
  if Req_EM_T p0 0 then (st, Some None) else let '(st, l) := p1_step3 rs max_2 st p0 in (st, option_map Some l).
Definition integration3 (value : R -> option (R * R) -> R) (rs : nat -> participant) (min_1 max_1 max_2 : R)
    (ps : list R) (trace : list (nat * nat)) : list R :=
  run (step3 rs max_2) value ps (fun _ => (min_1, max_1)) trace (map (fun _ => 0) ps).
