(* C128, C132: the units and the constants. *)
From Coq Require Import Reals Lra.
From Verif Require Import Base UnitsModel.
Open Scope R_scope.

(* x agrees with y to one percent *)
Definition about (x y : R) : Prop := 99 / 100 * y < x < 101 / 100 * y.

(* the measured relations between second, metre, kilogram, newton, density and
   gravitational constant, in units with c = hbar = 1 *)
Definition light_second (s m : R) : Prop := about s (299792458 * m).
Definition newton_law (N kg m s : R) : Prop := about N (kg * m / s ^ 2).
Definition density (d kg m : R) : Prop := about d (kg / 1000 / (m / 100) ^ 3).
Definition gravity (G N kg m : R) : Prop := about G (667 / 100 * / 10 ^ 11 * (N / kg ^ 2 * m ^ 2)).

Ltac units := unfold light_second, newton_law, density, gravity, about, import_common; cbn [munits mconsts reset_units constants
  eV keV MeV GeV TeV sec kg metre newton K9 g_cm3 M_p G].
(* none of them holds: the metre is too short *)
Theorem C128_metre_refuted : let u := munits import_common in let c := mconsts import_common in
  ~ light_second (sec u) (metre u) /\ ~ newton_law (newton u) (kg u) (metre u) (sec u) /\
  ~ density (g_cm3 u) (kg u) (metre u) /\ ~ gravity (G c) (newton u) (kg u) (metre u).
Proof. units. repeat split; intros [H1 H2]; lra. Qed.
Print Assumptions C128_metre_refuted.
(* the metre is smaller by a factor 2 pi (6.28319 to five digits): hc was used in
   place of hbar c. With that factor all the relations hold *)
Theorem C128_consistent_up_to_2pi : let u := munits import_common in let c := mconsts import_common in
  let m := 628319 / 10 ^ 5 * metre u in
  light_second (sec u) m /\ newton_law (newton u) (kg u) m (sec u) /\ density (g_cm3 u) (kg u) m /\ gravity (G c) (newton u) (kg u) m.
Proof. units. repeat split; lra. Qed.
Print Assumptions C128_consistent_up_to_2pi.

(* C132: rescaling the energy unit. An energy scales as k, a time and a length as
   1/k, a force as k^2, a density as k^4. *)
Definition scaled (k : R) (u v : units) : Prop :=
  eV v = k * eV u /\ keV v = k * keV u /\ MeV v = k * MeV u /\ GeV v = k * GeV u /\ TeV v = k * TeV u /\
  kg v = k * kg u /\ K9 v = k * K9 u /\ sec v = sec u / k /\ metre v = metre u / k /\
  newton v = k ^ 2 * newton u /\ g_cm3 v = k ^ 4 * g_cm3 u.
Theorem C132_units_follow : forall k s, k <> 0 -> (exists e, e <> 0 /\ munits s = reset_units e) ->
  scaled k (munits s) (munits (mrun s [AssignEV (k * eV (munits s)); ResetUnits])).
Proof.
  intros k s Hk (e & He & Hu). unfold mrun. cbn [fold_left mstep munits eV]. rewrite Hu.
  unfold scaled. cbn [reset_units eV keV MeV GeV TeV sec kg metre newton K9 g_cm3].
  repeat split; field; auto.
Qed.
Print Assumptions C132_units_follow.
(* after any history that ends with a reset the units are those of the last
   assigned energy unit; without one they are unchanged *)
Definition last_eV (e : R) (ops : list mop) : R := fold_left (fun e o => match o with AssignEV v => v | ResetUnits => e end) ops e.
Lemma eV_run : forall ops s, eV (munits (mrun s ops)) = last_eV (eV (munits s)) ops.
Proof.
  unfold mrun, last_eV. induction ops as [|o ops IH]; intros s; [reflexivity|]. cbn [fold_left]. rewrite IH. destruct o; reflexivity.
Qed.
Theorem C132_reset_is_exact : forall s ops, munits (mrun s (ops ++ [ResetUnits])) = reset_units (last_eV (eV (munits s)) ops).
Proof. intros s ops. rewrite <- eV_run. unfold mrun. rewrite fold_left_app. reflexivity. Qed.
Print Assumptions C132_reset_is_exact.
(* but the constants are never recomputed *)
Theorem C132_constants_stale : forall s ops, mconsts (mrun s ops) = mconsts s.
Proof. intros s ops. revert s. unfold mrun. induction ops as [|o ops IH]; intros s; [reflexivity|]. cbn [fold_left]. rewrite IH. destruct o; reflexivity. Qed.
Print Assumptions C132_constants_stale.
(* so that the Planck mass in MeV, a pure number, changes with the choice of
   units: after a reset with a k times larger unit it is k times smaller *)
Theorem C132_constants_follow_refuted : forall k, k <> 0 -> k <> 1 ->
  let s := mrun import_common [AssignEV (k * eV (munits import_common)); ResetUnits] in
  M_p (mconsts s) / MeV (munits s) = M_p (mconsts import_common) / MeV (munits import_common) / k /\
  M_p (mconsts s) / MeV (munits s) <> M_p (mconsts import_common) / MeV (munits import_common) /\
  mconsts s <> constants (munits s).
Proof.
  intros k Hk H1. cbv zeta. rewrite C132_constants_stale. unfold mrun. cbn [fold_left mstep munits eV import_common].
  cbn [mconsts import_common constants reset_units M_p MeV eV munits].
  assert (E : 12209 / 10 ^ 4 * 10 ^ 22 * (/ 10 ^ 9 * 10 ^ 3 * 10 ^ 3) / (k * / 10 ^ 9 * 10 ^ 3 * 10 ^ 3) =
    12209 / 10 ^ 4 * 10 ^ 22 * (/ 10 ^ 9 * 10 ^ 3 * 10 ^ 3) / (/ 10 ^ 9 * 10 ^ 3 * 10 ^ 3) / k) by (field; auto).
  split; [exact E|]. split.
  - rewrite E. intros Z. apply H1. apply (f_equal (fun x => x * k)) in Z.
    unfold Rdiv at 1 in Z. rewrite Rmult_assoc, Rinv_l in Z by exact Hk. lra.
  - intros Z. apply (f_equal M_p) in Z. cbn [M_p constants MeV reset_units] in Z. apply H1. lra.
Qed.
Print Assumptions C132_constants_follow_refuted.
(* while constants evaluated from the new units would be right *)
Theorem C132_recomputed_constants : forall k e, k <> 0 -> e <> 0 ->
  let c := constants (reset_units e) in let c' := constants (reset_units (k * e)) in
  M_p c' = k * M_p c /\ G c' = G c / k ^ 2 /\ G_F c' = G_F c / k ^ 2 /\ Hubble c' = k * Hubble c /\
  lambda_QCD c' = k * lambda_QCD c /\ M_W c' = k * M_W c /\ f_K c' = k * f_K c /\ f_eta_c c' = k * f_eta_c c /\
  f_D c' = k * f_D c /\ f_Ds c' = k * f_Ds c /\ f_Ds_star c' = k * f_Ds_star c /\
  delta_m12_sq c' = k ^ 2 * delta_m12_sq c /\ delta_m13_sq c' = k ^ 2 * delta_m13_sq c /\
  rate_normalization c' = rate_normalization c / k ^ 5 /\ MSW_constant c' = MSW_constant c / k ^ 4.
Proof.
  intros k e Hk He. cbv zeta. pose proof PI_neq0. cbn [constants reset_units M_p G G_F Hubble f_K f_eta_c f_D f_Ds f_Ds_star lambda_QCD M_W
    delta_m12_sq delta_m13_sq rate_normalization MSW_constant eV MeV GeV sec].
  repeat split; field; auto.
Qed.
Print Assumptions C132_recomputed_constants.
Example C132_ex : munits import_common = reset_units (/ 10 ^ 9) /\ / 10 ^ 9 <> 0 /\ GeV (munits import_common) = 1.
Proof.
  split; [reflexivity|]. split; [apply Rinv_neq_0_compat, pow_nonzero; intros Z; lra|]. cbn [munits import_common reset_units GeV]. field.
Qed.
