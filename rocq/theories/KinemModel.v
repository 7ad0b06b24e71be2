(* Model of the kinematic helpers of common/kinematics.py: two-body momenta,
   momentum bounds, grid cut-offs, decoupling temperatures, multipliers,
   rescaling of fast decays. Floats are reals extended by infinities and NaN
   where a square root or a division can leave the reals (xr, EvolveModel). *)
From Coq Require Import Reals.
From Verif Require Import Base EvolveModel ParamsModel GridsModel ReactionsModel FunctionalModel.
Open Scope R_scope.

(* numpy.sqrt of a finite number *)
Definition nsqrt (x : R) : xr := if Rlt_dec x 0 then NaN else Fin (sqrt x).
(* numpy division of finite numbers *)
Definition ndiv (n d : R) : xr :=
  if Req_EM_T d 0 then (if Req_EM_T n 0 then NaN else if Rlt_dec 0 n then PInf else NInf) else Fin (n / d).

(* kinematics.py:12-16 *)
Definition cm_momentum (m1 m2 m3 : R) : xr :=
  match nsqrt ((m1 ^ 2 - m2 ^ 2 - m3 ^ 2) ^ 2 - (2 * m2 * m3) ^ 2) with
  | Fin s => ndiv s (2 * m1)
  | x => x
  end.

(* what the helpers read of a specie: object identity, name, mass, conformal
   mass, grid.TEMPLATE, grid.MAX_MOMENTUM, majorana, Q (not every particle has
   one), decayed, fast_decay (with num_creation and the table BR) *)
Record kspecie := mkK {
  kid : nat; kname : string; kmass : R; kconf : R; kgrid : list R; kmax : R; kmaj : bool; kQ : option R;
  kdecayed : bool; kfast : bool; knum : R; kBR : list (string * R); ksymbol : string; kdof : R;
  kdensity : R; kdensity0 : R }.
Record kitem := mkKI { kside : Z; ks : kspecie }.
Definition ksum (r : list kitem) : Z := fold_right Z.add 0%Z (map kside r).
(* utils.py:125-142 *)
Definition creation (r : list kitem) : bool := existsb (Z.eqb (ksum r)) [-1; -2]%Z.
Definition scattering (r : list kitem) : bool := existsb (Z.eqb (ksum r)) [0]%Z.
Definition decay (r : list kitem) : bool := existsb (Z.eqb (ksum r)) [1; 2]%Z.

(* 23-44: bounds for particle 1 in 1 + 2 <- 3, conformal masses m1, m2, m3 and
   the parent's grid.MAX_MOMENTUM. Modelled for m3 > 0 (for a massless parent
   the boost is infinite). *)
Definition boost_beta (m3 pmax : R) : R := pmax / sqrt (m3 ^ 2 + pmax ^ 2).
Definition boost_gamma (m3 pmax : R) : R := 1 / sqrt (1 - boost_beta m3 pmax ^ 2).
Definition bounds_3p (massless1 : bool) (m1 m2 m3 pmax : R) : xr * xr :=
  let beta := boost_beta m3 pmax in
  let gamma := boost_gamma m3 pmax in
  match cm_momentum m3 m2 m1 with
  | Fin p =>
      let E := sqrt (m1 ^ 2 + p ^ 2) in
      let Emax := gamma * (E + beta * p) in
      let Emin := if massless1 then gamma * (E - beta * p) else m1 in
      (nsqrt (Emin ^ 2 - m1 ^ 2), nsqrt (Emax ^ 2 - m1 ^ 2))
  | _ => (if massless1 then NaN else nsqrt (m1 ^ 2 - m1 ^ 2), NaN)
  end.

(* numpy.searchsorted with an extended bound on a grid of finite numbers: NaN
   and +inf sort after every element *)
Definition ssl (grid : list R) (x : xr) : nat :=
  match x with Fin r => searchsorted_left grid r | NInf => O | _ => length grid end.
Definition ssr (grid : list R) (x : xr) : nat :=
  match x with Fin r => searchsorted_right grid r | NInf => O | _ => length grid end.

(* 46-61; zero paddings are given by their lengths. For the empty grid Python's
   upper element is -1 and all three parts are empty, as here. *)
Definition slices_3p (grid : list R) (lo hi : xr) : nat * list R * nat :=
  let l := (ssr grid lo - 1)%nat in
  let u := Nat.min (length grid - 1) (ssl grid hi) in
  (Nat.min l (length grid),
   if (l =? u)%nat then [] else firstn (u + 1 - l) (skipn l grid),
   (length grid - u - 1)%nat).
(* 146-155 for a creation reaction: False (None here) when nothing non-zero is
   left, otherwise the three parts *)
Definition cutoff_3p (grid : list R) (lo hi : xr) : option (nat * list R * nat) :=
  let '(a, b, c) := slices_3p grid lo hi in
  if existsb (fun y => if Req_EM_T y 0 then false else true) b then Some (a, b, c) else None.

(* Python max(x, c): the second wins only if it compares greater *)
Definition pymax (x : xr) (c : R) : xr := if xgt (Fin c) x then Fin c else x.
(* 63-76; maxmev = environment.get('MAX_MOMENTUM_MEV') *)
Definition bound_4p (m1 m2 m3 m4 pmax4 : R) (maxmev : R) : xr :=
  pymax (nsqrt ((sqrt (pmax4 ^ 2 + m4 ^ 2) - m2 - m3) ^ 2 - m1 ^ 2)) (maxmev * MeV).
(* 82-88, 100-106, 120-126: computed prefix and length of the zero padding *)
Definition slices_4p (grid : list R) (ub : xr) : list R * nat :=
  let u := Nat.min (length grid - 1) (ssl grid ub) in
  (firstn (u + 1) grid, (length grid - u - 1)%nat).
(* 90-98, 108-118; hnl = HNL_ENERGY when set *)
Definition sterile : string := "Sterile neutrino (Dirac)".
Definition maxmom_scattering (p : kspecie) (hnl : option R) (maxmev : R) : xr :=
  if String.eqb (kname p) sterile then Fin (kmax p)
  else match hnl with
       | Some E => pymax (nsqrt (E ^ 2 - kconf p ^ 2)) (maxmev * MeV)
       | None => Fin (maxmev * MeV)
       end.
Definition maxmom_decay (p : kspecie) (hnl : option R) (maxmev : R) : xr :=
  if String.eqb (kname p) sterile then Fin (kmax p)
  else match hnl with
       | Some E => pymax (nsqrt (E ^ 2 - kconf p ^ 2)) (maxmev * MeV)
       | None => Fin (kmax p)
       end.
(* 128-144. `ps` is only bound in the three branches. *)
Definition cutoff_4p (r : list kitem) (hnl : option R) (maxmev : R) : result (list R * nat) :=
  match r with
  | i1 :: i2 :: i3 :: i4 :: _ =>
      if creation r then Ok (slices_4p (kgrid (ks i1)) (bound_4p (kconf (ks i1)) (kconf (ks i2)) (kconf (ks i3)) (kconf (ks i4)) (kmax (ks i4)) maxmev))
      else if scattering r then Ok (slices_4p (kgrid (ks i1)) (maxmom_scattering (ks i1) hnl maxmev))
      else if decay r then Ok (slices_4p (kgrid (ks i1)) (maxmom_decay (ks i1) hnl maxmev))
      else Raise UnboundLocalError
  | _ => Raise IndexError
  end.

(* ------------------------------------------------------------------ *)
(* 157-169; common/__init__.py:41-72 *)
Definition lambda_QCD : R := 150 * MeV.
Definition muon_mass : R := 105658 / 1000 * MeV.
Definition G_F : R := 1166 / 1000 * / 10 ^ 5 / (1000 * MeV) ^ 2.
Definition g_star (mass : R) : R :=
  let g := if Rlt_dec lambda_QCD mass then Some (6175 / 100) else None in
  let g := if (if Rlt_dec muon_mass mass then true else false) && (if Rlt_dec mass lambda_QCD then true else false)
           then Some (1425 / 100) else Some (1075 / 100) in
  match g with Some x => x | None => 0 end.
(* x ** (1/3) of a positive number; a zero angle divides by zero: inf *)
Definition T_rel (mass angle : R) : xr :=
  if Req_EM_T angle 0 then PInf
  else Fin (Rpower (166 / 100 * sqrt (g_star mass) / (M_p * G_F ^ 2 * angle ^ 2)) (1 / 3)).
(* 171-178 *)
Definition decoupling_temperature (mass angle : R) : xr :=
  match T_rel mass angle with
  | Fin T =>
      if Rlt_dec (15 / 10 * mass) (15 / 10 * T) then Fin (15 / 10 * T)
      else if (if Rle_dec mass (15 / 10 * T) then true else false) && (if Rle_dec (15 / 10 * T) (15 / 10 * mass) then true else false)
      then Fin (15 / 10 * mass) else Fin mass
  | x => x
  end.

(* ------------------------------------------------------------------ *)
(* collections.Counter equality of two strings *)
Fixpoint count_char (c : Ascii.ascii) (s : string) : nat :=
  match s with EmptyString => O | String d r => ((if Ascii.eqb c d then 1 else 0) + count_char c r)%nat end.
Fixpoint chars (s : string) : list Ascii.ascii := match s with EmptyString => [] | String c r => c :: chars r end.
Definition counter_eq (s t : string) : bool :=
  forallb (fun c => (count_char c s =? count_char c t)%nat) (chars s ++ chars t).
Fixpoint concat_symbols (l : list kitem) : string :=
  match l with [] => EmptyString | i :: r => String.append (ksymbol (ks i)) (concat_symbols r) end.
(* 365-367: the last matching key wins; None when there is none *)
Definition find_BR (sym : string) (table : list (string * R)) : option R :=
  fold_left (fun acc kv => if counter_eq sym (fst kv) then Some (snd kv) else acc) table None.
(* scipy.integrate.simps(v, grid): a linear functional of the vector, given by
   its weights on the grid *)
Definition quad (w v : list R) : R := fold_right Rplus 0 (map (fun p => fst p * snd p) (combine w v)).
Definition vmul (u v : list R) : list R := map (fun p => fst p * snd p) (combine u v).
Definition vscale (c : R) (v : list R) : list R := map (fun x => c * x) v.
(* 361-374. None stands for the returned False. constant is a vector. *)
Definition dof_eff (p : kspecie) : R := if kmaj p then kdof p else kdof p / 2.
Definition number (w : list R) (p : kspecie) (v : list R) : R :=
  quad w (vmul v (map (fun y => dof_eff p * y ^ 2) (kgrid p))).
Definition scaling (w : list R) (r : list kitem) (fullstack constant : list R) : result (option (list R)) :=
  match r with
  | [] => Raise IndexError
  | i1 :: _ =>
      let parent := ks (last r i1) in
      if creation r && kfast parent then
        let br := find_BR (concat_symbols (removelast r)) (kBR parent) in
        let created := number w (ks i1) (vmul fullstack constant) in
        if Req_EM_T created 0 then Ok None
        else match br with
             | None => Raise UnboundLocalError
             | Some b => Ok (Some (vscale (b * knum parent / created) fullstack))
             end
      else Ok (Some fullstack)
  end.

(* truth value of what scaling returned *)
Definition truth (x : option (list R)) : result bool :=
  match x with
  | None => Ok false
  | Some [] => Ok false
  | Some [v] => Ok (if Req_EM_T v 0 then false else true)
  | Some _ => Raise ValueError
  end.
(* kinematics.py:18-21 *)
Inductive output := Pair (A B : list R) | Vec (C : list R).
Definition is_full (k : kind) : bool := match k with Full | Full_vacuum => true | _ => false end.
Definition zeros (n : nat) : list R := repeat 0 n.
Definition return_function (k : kind) (fast : bool) (n : nat) : output :=
  if is_full k || fast then Pair (zeros n) (zeros n) else Vec (zeros n).
(* four_particle/__init__.py:190-205 and three_particle/__init__.py:125-140 for
   the branch that is not (Full kind and no fast_decay) *)
Definition finish (k : kind) (fast : bool) (dist fullstack constant : list R) : output :=
  let v := vmul fullstack constant in
  if fast then
    match k with
    | Decay | Ff_vacuum => Pair (zeros (length fullstack)) v
    | Creation | F1_vacuum => Pair v (zeros (length fullstack))
    | Ff => Vec (vmul v dist)
    | _ => Vec v
    end
  else match k with
       | Ff | Decay | Ff_vacuum => Vec (vmul v dist)
       | _ => Vec v
       end.
(* four_particle/__init__.py:183-188 *)
Definition tail_4p (w : list R) (r : list kitem) (k : kind) (fast : bool) (dist fullstack constant : list R) : result output :=
  let* sc := scaling w r fullstack constant in
  let* t := truth sc in
  if t then Ok (finish k fast dist (match sc with Some v => v | None => [] end) constant)
  else Ok (return_function k fast (length fullstack)).
(* three_particle/__init__.py:118-123: an exception in the test means "scaled" *)
Definition tail_3p (w : list R) (r : list kitem) (k : kind) (fast : bool) (dist fullstack constant : list R) : result output :=
  let* sc := scaling w r fullstack constant in
  match truth sc with
  | Ok false => Ok (return_function k fast (length fullstack))
  | _ => Ok (finish k fast dist (match sc with Some v => v | None => [] end) constant)
  end.

(* ------------------------------------------------------------------ *)
(* 387-441, Icoll_fast_decay without the attribute `thermalization`. F1s and Ffs:
   what the integrals returned; as_written is the kind of object handed to
   reaction_type (the reaction, a list without attribute `reaction`). *)
Definition reaction_type_arg (is_integral : bool) (r : list kitem) : result (list kitem) :=
  if is_integral then Ok r else Raise AttributeError.
Definition vsum (n : nat) (vs : list (list R)) : list R :=
  fold_right (fun u v => map (fun p => fst p + snd p) (combine u v)) (zeros n) vs.
(* one integral of the second loop; the local BR survives from one iteration to
   the next (411-424), so an unmatched key reuses the previous ratio *)
Definition decay_part (w : list R) (is_integral : bool) (p : kspecie) (num : R) (distr : list R) (old : option R) (r : list kitem) (F : list R) : result (option R * list R) :=
  let* rr := reaction_type_arg is_integral r in
  if decay rr then
    let br := match find_BR (concat_symbols (tl r)) (match r with i :: _ => kBR (ks i) | [] => [] end) with Some b => Some b | None => old end in
    let decayed := number w p (vscale (-1) (vmul distr F)) in
    if Req_EM_T decayed 0 then Ok (br, zeros (length F))
    else match br with
         | None => Raise UnboundLocalError
         | Some b => Ok (br, vscale (b * num / decayed) (vmul F distr))
         end
  else Ok (old, vmul F distr).
Fixpoint decay_parts (w : list R) (is_integral : bool) (p : kspecie) (num : R) (distr : list R) (old : option R) (l : list (list kitem * list R)) : result (list (list R)) :=
  match l with
  | [] => Ok []
  | (r, F) :: t => let* x := decay_part w is_integral p num distr old r F in
                    let* xs := decay_parts w is_integral p num distr (fst x) t in Ok (snd x :: xs)
  end.
(* ints: reaction, F1, Ff of every integral; backg: distr_backg; h: step.
   Result: the collision integral, num_creation *)
Definition Icoll_fast_decay (w : list R) (is_integral : bool) (p : kspecie) (h : R) (backg : list R) (ints : list (list kitem * list R * list R)) : result (list R * R) :=
  let n := length (kgrid p) in
  let F1tot := vsum n (map (fun i => snd (fst i)) ints) in
  let distr := vsum n [backg; vscale h F1tot] in
  let num := number w p F1tot in
  let* parts := decay_parts w is_integral p num distr None (map (fun i => (fst (fst i), snd i)) ints) in
  Ok (vsum n [F1tot; vsum n parts], num).

(* ------------------------------------------------------------------ *)
(* 325-345. Counter of species objects on one side. *)
Definition count_side (s : Z) (id : nat) (r : list kitem) : nat :=
  length (filter (fun i => Z.eqb (kside i) s && Nat.eqb (kid (ks i)) id) r).
Definition has_sterile (r : list kitem) : bool := existsb (fun i => String.eqb sterile (kname (ks i))) r.
(* interaction.reaction[k].specie.majorana and interaction.particle.Q; the
   attribute Q is read only when majorana is true *)
Definition neutral_or_dirac (parent part : kspecie) : result bool :=
  if kmaj parent then match kQ part with None => Raise AttributeError | Some q => Ok (if Req_EM_T q 0 then true else false) end else Ok true.
Definition multiplier_4p (r : list kitem) : result R :=
  match r with
  | i1 :: _ :: _ :: i4 :: _ =>
      let* applies := (if has_sterile r then Ok true else if creation r then neutral_or_dirac (ks i4) (ks i1) else Ok false) in
      let l := count_side (-1) (kid (ks i1)) r in
      let q := count_side 1 (kid (ks i1)) r in
      Ok (if (applies : bool) then
            if (l =? 2)%nat && ((q =? 0)%nat || (q =? 1)%nat) then 2
            else if (l =? 3)%nat && (q =? 0)%nat then 3 else 1
          else 1)
  | _ => Raise IndexError
  end.
Definition multiplier_3p (r : list kitem) : result R :=
  match r with
  | i1 :: _ :: i3 :: _ =>
      let* applies := (if has_sterile r then Ok true else if creation r then neutral_or_dirac (ks i3) (ks i1) else Ok false) in
      Ok (if (applies : bool) then if (count_side (-1) (kid (ks i1)) r =? 2)%nat && (count_side 1 (kid (ks i1)) r =? 0)%nat then 2 else 1 else 1)
  | _ => Raise IndexError
  end.

(* ------------------------------------------------------------------ *)
(* 280-323: interactions that are skipped. rel = environment 'Relativistic_decoupling'
   is set; T, m, a_ini of the particle's params. Densities divide as numpy
   floats: comparisons with inf or NaN are covered by dless. *)
Definition dless (d d0 thr : R) : bool :=
  match ndiv d d0 with Fin x => if Rlt_dec x thr then true else false | NInf => true | _ => false end.
Definition diluted (thr : R) (s : kspecie) : bool := dless (kdensity s) (kdensity0 s) thr.
Definition neglect_3p (k : kind) (fast : bool) (r : list kitem) : result bool :=
  match r with
  | i1 :: i2 :: _ =>
      let lst := ks (last r i1) in
      if (if Req_EM_T (kmass (ks i1)) 0 then true else false) && Z.eqb (kside i2) 1 then Ok true
      else if creation r && kdecayed lst && (is_full k || fast) then Ok true
      else if (creation r && kfast lst && (if Req_EM_T (knum lst) 0 then true else false)
               || decay r && kfast (ks i1) && (if Req_EM_T (knum (ks i1)) 0 then true else false)) && (is_full k || fast) then Ok true
      else Ok false
  | _ => Raise IndexError
  end.
Definition neglect_4p (rel : bool) (T m a_ini : R) (r : list kitem) : result bool :=
  match r with
  | i1 :: i2 :: i3 :: i4 :: _ =>
      let lst := ks (last r i1) in
      let thr := / 10 ^ 10 * (a_ini / 10) ^ 3 in
      if creation r && kdecayed lst then Ok true
      else if scattering r && (diluted thr (ks i1) || diluted thr (ks i2)) && (diluted thr (ks i3) || diluted thr (ks i4)) then Ok true
      else if creation r && kfast lst && (if Req_EM_T (knum lst) 0 then true else false)
              || decay r && kfast (ks i1) && (if Req_EM_T (knum (ks i1)) 0 then true else false) then Ok true
      else if scattering r && has_sterile r
              && (rel && (if Rlt_dec T (m / a_ini / 15) then true else false) || (if Rlt_dec T MeV then true else false)) then Ok true
      else if decay r && String.eqb (kname (ks i1)) sterile && (if Rlt_dec (kmass (ks i1)) T then true else false) then Ok true
      else Ok false
  | _ => Raise IndexError
  end.

(* ------------------------------------------------------------------ *)
(* 180-234: grid resolutions. res = FOUR_PARTICLE_GRID_RESOLUTION, aT = 1 MeV *)
Definition res_HNL : R := sqrt (3 - 8 / PI) * MeV.
(* numpy index of a non-empty list: -1 is the last element *)
Definition np_pick (l : list R) (k : nat) : R := match k with O => last l 0 | S j => nth j l 0 end.
Definition mesons_nu : list R := map (fun x => x * MeV) [13498 / 100; 13957 / 100; 54786 / 100; 77511 / 100; 78265 / 100; 95778 / 100; 101946 / 100].
Definition mesons : list R := map (fun x => x * MeV) [13498 / 100; 13957 / 100; 493677 / 1000; 497611 / 1000; 54786 / 100; 77511 / 100; 78265 / 100; 95778 / 100; 101946 / 100].
Definition chosen_meson (l : list R) (mass : R) : R := np_pick l (searchsorted_left l mass).
(* cm_momentum(mass, 0, meson) = sqrt((mass^2 - meson^2)^2) / (2 mass) *)
Definition cm0 (mass meson : R) : R := Rabs (mass ^ 2 - meson ^ 2) / (2 * mass).
(* 186-200 *)
Definition res_neutrino (res mass : R) : R :=
  if Rlt_dec mass (13498 / 100 * MeV) then
    if (if Rlt_dec muon_mass mass then true else false) && (if Rlt_dec (mass - muon_mass) (10 * MeV) then true else false) then res * MeV / 2 else res * MeV
  else Rmin (2 * cm0 mass (chosen_meson mesons_nu mass) * res_HNL / mass * (75 / 100)) (res * MeV / 3).
(* 202-217; `not delta > 0` also catches NaN *)
Definition res_meson (res mass : R) : R :=
  if Rlt_dec mass (13498 / 100 * MeV) then res * MeV
  else
    let M := chosen_meson mesons mass in
    let p := cm0 mass M in
    let E := sqrt (p ^ 2 + M ^ 2) in
    let d := res_HNL * p / mass in
    let delta := match nsqrt ((E + d) ^ 2 - M ^ 2), nsqrt ((E - d) ^ 2 - M ^ 2) with Fin x, Fin y => Fin (x - y) | _, _ => NaN end in
    let delta := match delta with Fin x => if Rlt_dec 0 x then x else res * MeV / 3 | _ => res * MeV / 3 end in
    Rmin (delta / 3) (res * MeV).
(* 236-244: int() of the number of samples is its floor; None when not finite *)
Definition params_HNL (mass angle : R) : option (Z * R) :=
  let m_a := match decoupling_temperature mass angle with Fin Td => mass * (MeV / Td) | _ => 0 end in
  match nsqrt ((MeV * ln (10 ^ 100)) ^ 2 - m_a ^ 2) with
  | Fin mx => Some ((up (mx / res_HNL) - 1)%Z, mx)
  | _ => None
  end.
