(* C16-C20, C28: the cosmological state. *)
From Coq Require Import Reals Permutation.
From Verif Require Import Base ParamsModel ParamsProofs.
Open Scope R_scope.

(* C16 *)
Theorem C16_bookkeeping_invariants :
  forall logmode T km kdx kdy p0 ops,
  params_init logmode (Val T) km kdx kdy = Ok p0 -> args_ok logmode T km kdx kdy ->
  Forall (fun o => 0 < rho_of o) ops ->
  let p := prun logmode p0 ops in
  px p = pa p * pm p /\ pa p * pT p = paT p /\ pm p = pm p0 /\ 0 < pa p.
Proof. exact run_invariants. Qed.
Print Assumptions C16_bookkeeping_invariants.
Example C16_ex : exists p,
  params_init true (Val 10) (Val 1) Absent (Val (1/10)) = Ok p /\ args_ok true 10 (Val 1) Absent (Val (1/10)).
Proof. exact params_example. Qed.

(* C17 *)
Theorem C17_scale_factor_and_time_increase :
  forall logmode T km kdx kdy p0 ops daT rho ent,
  params_init logmode (Val T) km kdx kdy = Ok p0 -> args_ok logmode T km kdx kdy ->
  Forall (fun o => 0 < rho_of o) ops -> 0 < rho ->
  let p := prun logmode p0 ops in
  let p' := prun logmode p0 (ops ++ [MakeStep daT rho ent]) in
  pa p < pa p' /\ pt p < pt p' /\ pt p' - pt p = (1 - pa p / pa p') / pH p'.
Proof. exact run_monotone. Qed.
Print Assumptions C17_scale_factor_and_time_increase.
Theorem C17_closed_form_log :
  forall T km kdx dy p0 ops,
  params_init true (Val T) km kdx (Val dy) = Ok p0 -> args_ok true T km kdx (Val dy) ->
  Forall (fun o => 0 < rho_of o) ops ->
  pa (prun true p0 ops) = pm p0 / T * (1 + dy) ^ nsteps ops.
Proof. exact run_closed_log. Qed.
Print Assumptions C17_closed_form_log.
Theorem C17_closed_form_linear :
  forall T km dx kdy p0 ops,
  params_init false (Val T) km (Val dx) kdy = Ok p0 -> args_ok false T km (Val dx) kdy ->
  px (prun false p0 ops) = pm p0 ^ 2 / T + INR (nsteps ops) * dx.
Proof. exact run_closed_lin. Qed.
Print Assumptions C17_closed_form_linear.

(* C18 *)
Theorem C18_friedmann :
  forall logmode p rho ent, 0 <= rho ->
  pH (params_update logmode p rho ent) ^ 2 = 8 * PI / 3 * G * rho /\
  0 <= pH (params_update logmode p rho ent).
Proof. exact friedmann. Qed.
Print Assumptions C18_friedmann.
Theorem C18_scaling :
  forall logmode p rho ent k, 0 < k -> 0 < rho ->
  let u r := params_update logmode p r ent in
  pH (u (k ^ 2 * rho)) = k * pH (u rho) /\
  pt (u (k ^ 2 * rho)) - pt p = (pt (u rho) - pt p) / k.
Proof. exact friedmann_scaling. Qed.
Print Assumptions C18_scaling.

(* C19 *)
Theorem C19_neff_counts_neutrinos :
  forall logmode p N ent, 0 < pT p ->
  pNeff (params_update logmode p
    (rad_rho 2 false (pT p) + N * rad_rho 2 true (pT p / (1401 / 1000))) ent) = N.
Proof. exact neff_counts. Qed.
Print Assumptions C19_neff_counts_neutrinos.
Theorem C19_neff_affine :
  forall logmode p r1 r2 l ent,
  let n r := pNeff (params_update logmode p r ent) in
  n ((1 - l) * r1 + l * r2) = (1 - l) * n r1 + l * n r2.
Proof. exact neff_affine. Qed.
Print Assumptions C19_neff_affine.
Theorem C19_neff_increasing :
  forall logmode p r1 r2 ent, pT p <> 0 -> r1 < r2 ->
  pNeff (params_update logmode p r1 ent) < pNeff (params_update logmode p r2 ent).
Proof. exact neff_incr. Qed.
Print Assumptions C19_neff_increasing.

(* C20 *)
Theorem C20_constructor_succeeds_iff :
  forall logmode kT km kdx kdy,
  (exists p, params_init logmode kT km kdx kdy = Ok p) <->
  (exists T, kT = Val T /\ T <> 0) /\ km <> PNone /\
  (exists s, (if logmode then kdy else kdx) = Val s /\ s <> 0).
Proof. exact init_ok_iff. Qed.
Print Assumptions C20_constructor_succeeds_iff.
Theorem C20_missing_temperature_is_TypeError :
  forall logmode km kdx kdy kT, kT = Absent \/ kT = PNone ->
  params_init logmode kT km kdx kdy = Raise TypeError.
Proof. exact init_no_T. Qed.
Print Assumptions C20_missing_temperature_is_TypeError.

(* C28 *)
Theorem C28_qcd_conserves_entropy :
  forall orderer (Ho : forall l, Permutation (orderer l) l) T ps hist aTl dropped hadrons,
  let kept := filter (fun p => negb (existsb (String.eqb (qname p)) qcd_names)) ps in
  0 < entropic_dof T ps -> 0 < entropic_dof T (kept ++ hadrons) ->
  exists aT ps', qcd_aT orderer T ps (hist ++ [aTl; dropped]) (Some hadrons) = Ok (aT, ps', hist ++ [aTl]) /\
    entropic_dof T ps' * aT ^ 3 = entropic_dof T ps * aTl ^ 3 /\
    Permutation ps' (kept ++ hadrons).
Proof. exact qcd_conserves. Qed.
Print Assumptions C28_qcd_conserves_entropy.
Example C28_ex :
  let ps := [mkqpart "Gluon" 0 16 false true; mkqpart "Photon" 0 2 false true] in
  let hs := [mkqpart "Neutral pion" 1 1 false true] in
  let kept := filter (fun p => negb (existsb (String.eqb (qname p)) qcd_names)) ps in
  0 < entropic_dof 2 ps /\ 0 < entropic_dof 2 (kept ++ hs) /\ kept = [mkqpart "Photon" 0 2 false true].
Proof. exact qcd_example. Qed.
Theorem C28_qcd_needs_two_rows :
  forall orderer T ps hist hs, (length hist <= 1)%nat ->
  qcd_aT orderer T ps hist (Some hs) = Raise IndexError.
Proof. exact qcd_short. Qed.
Print Assumptions C28_qcd_needs_two_rows.
Theorem C28_qcd_needs_hadrons :
  forall orderer T ps hist, qcd_aT orderer T ps hist None = Raise TypeError.
Proof. exact qcd_no_hadrons. Qed.
Print Assumptions C28_qcd_needs_hadrons.

(* C98 *)
Theorem C98_initial_time_is_half_hubble_time :
  forall logmode p rho ent, 0 < rho ->
  init_time rho = 1 / (2 * pH (params_update logmode p rho ent)).
Proof. intros. cbn. now apply init_time_half_hubble. Qed.
Print Assumptions C98_initial_time_is_half_hubble_time.
Theorem C98_initial_time_satisfies_radiation_age :
  forall logmode p rho ent, 0 < rho ->
  let t := init_time rho in let H := pH (params_update logmode p rho ent) in
  0 < t /\ 2 * H * t = 1.
Proof. exact init_time_age. Qed.
Print Assumptions C98_initial_time_satisfies_radiation_age.
Example C98_ex : 0 < init_time 1.
Proof. apply (proj1 (init_time_age true (mkparams 1 1 1 0 0 None 0 0 1 1 None 1 1) 1 0 Rlt_0_1)). Qed.
