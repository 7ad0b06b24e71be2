(* Model of the matrix elements of library/SM.py (SM) and library/NuMSM.py
   (NuMSM). Floats are reals. Masses are those of the particle tables; the
   mixing angles are a function of the flavour (the dictionary `thetas` has all
   flavours as keys). *)
From Coq Require Import Reals.
From Verif Require Import Base CrossModel ParamsModel LibModel.
Open Scope R_scope.

(* common/__init__.py:51, 55-57 *)
Definition G_Fermi : R := 1166 / 1000 / 10 ^ 5 / (1000 * MeV) ^ 2.
Definition sin_theta_w_2 : R := 2312 / 10000.
Definition g_R : R := sin_theta_w_2.
(* common/__init__.py:67 *)
Definition alpha : R := 1 / (137036 / 1000).
Definition mass (p : lib) : R := IZR (smass (sp p)) * eV.

(* SM.py:19-29 over four_particle/__init__.py:33-40: K is not scaled. The orders
   in the library are literal permutations, so the check of the order passes. *)
Definition weak (K1 K2 : R) (order : list nat) : mel :=
  M4 (store_order order) (K1 * (32 * G_Fermi ^ 2)) (K2 * (32 * G_Fermi ^ 2)) 0.
(* NuMSM.py:20-30 *)
Definition sterileM (theta K1 K2 : R) (order : list nat) : mel :=
  M4 (store_order order) (K1 * (32 * G_Fermi ^ 2) * theta ^ 2) (K2 * (32 * G_Fermi ^ 2) * theta ^ 2) 0.

(* SM.py:476 *)
Definition scattering_Ms : list mel := [weak 1 0 [0; 1; 2; 3]%nat].
(* 503-507 *)
Definition annihilation_Ms (g_L : R) : list mel :=
  [weak (4 * g_R ^ 2) 0 [0; 3; 1; 2]%nat; weak (4 * g_L ^ 2) 0 [0; 2; 1; 3]%nat; weak 0 (4 * g_L * g_R) [2; 3; 0; 1]%nat].
(* 519-521 *)
Definition CC_Ms : list mel := [weak 4 0 [0; 3; 1; 2]%nat].
(* 532-536 *)
Definition leptons_NC_Ms (g_L : R) : list mel :=
  [weak (4 * (g_L ^ 4 + g_R ^ 4)) 0 [0; 1; 2; 3]%nat; weak (4 * 2 * g_L ^ 2 * g_R ^ 2) 0 [0; 3; 1; 2]%nat;
   weak 0 (4 * - g_L * g_R * (g_L ^ 2 + g_R ^ 2)) [0; 2; 1; 3]%nat].
(* 382-392 *)
Definition CKM (u d : nat) : result R :=
  match u, d with
  | 1, 1 => Ok (974 / 1000)%R | 1, 2 => Ok (225 / 1000)%R | 1, 3 => Ok (4 / 1000)%R
  | 2, 1 => Ok (225 / 1000)%R | 2, 2 => Ok (973 / 1000)%R | 2, 3 => Ok (41 / 1000)%R
  | 3, 1 => Ok (9 / 1000)%R | 3, 2 => Ok (40 / 1000)%R | 3, 3 => Ok (999 / 1000)%R
  | _, _ => Raise KeyError
  end%nat.
(* 997 *)
Definition baryons_Ms : result (list mel) := let* V := CKM 1 1 in Ok [weak (2 * V ^ 2) 0 [0; 1; 2; 3]%nat].
(* 554-556 *)
Definition g_L_of (lepton neutrino : lib) : R := if flav_eqb (flav lepton) (flav neutrino) then g_R + 1 / 2 else g_R - 1 / 2.

(* 90-274: decay constants by name, AttributeError for other particles *)
Definition decay_constant (p : lib) : result R :=
  let n := lname p in
  if String.eqb n "Neutral pion" then Ok (1302 / 10 * MeV)
  else if String.eqb n "Charged pion" then Ok (1302 / 10 * MeV)
  else if String.eqb n "Charged kaon" then Ok (1556 / 10 * MeV)
  else if String.eqb n "Kaon long" then Ok (1556 / 10 * MeV)
  else if String.eqb n "Kaon short" then Ok (1556 / 10 * MeV)
  else if String.eqb n "Eta" then Ok (817 / 10 * MeV)
  else if String.eqb n "Charged rho" then Ok (209 * MeV)
  else if String.eqb n "Neutral rho" then Ok (2089 / 10 * MeV)
  else if String.eqb n "Omega" then Ok (1955 / 10 * MeV)
  else if String.eqb n "Eta prime" then Ok (- (947 / 10) * MeV)
  else if String.eqb n "Phi" then Ok (2295 / 10 * MeV)
  else Raise AttributeError.

Definition pydiv (a b : R) : result R := if Req_EM_T b 0 then Raise ZeroDivisionError else Ok (a / b).
(* 603-621 *)
Definition charged_pion_K (meson lepton : lib) : result R :=
  let* V := CKM 1 1 in
  let* f := decay_constant meson in
  let* r := pydiv (mass meson) (mass lepton) in
  Ok (2 * (G_Fermi * f * V) ^ 2 * mass lepton ^ 4 * (r ^ 2 - 1)).
(* 624-635 *)
Definition neutral_pion_K (meson : lib) : result R :=
  let* f := decay_constant meson in
  pydiv (alpha ^ 2 * mass meson ^ 4) (2 * PI ^ 2 * f ^ 2).

(* NuMSM.py:83-97: for the two interactions *)
Definition sterile_scattering_Ms (theta : R) (a b : lib) : list mel * list mel :=
  let K1 := if (sid (sp a) =? sid (sp b))%nat then 2 else 1 in
  ([sterileM theta K1 0 [0; 1; 2; 3]%nat], [sterileM theta K1 0 [2; 3; 0; 1]%nat]).
(* 111-114 *)
Definition sterile_NC_Ms (theta g_L : R) : list mel :=
  [sterileM theta (4 * g_L ^ 2) 0 [0; 2; 1; 3]%nat; sterileM theta (4 * g_R ^ 2) 0 [0; 3; 1; 2]%nat; sterileM theta 0 (4 * g_R * g_L) [2; 3; 0; 1]%nat].
(* 135-137 *)
Definition sterile_CC_Ms (theta : R) : list mel := [sterileM theta 4 0 [0; 2; 1; 3]%nat].
(* 248-262 *)
Definition quark_neutral_Ms (theta : R) (quark : lib) : result (list mel) :=
  let* g := if (Q3 quark =? -1)%Z then Ok (g_R / 2) else if (Q3 quark =? 2)%Z then Ok g_R else Raise UnboundLocalError in
  let x := 3 - 4 * g in
  Ok [sterileM theta (16 / 9 * g ^ 2) 0 [0; 2; 1; 3]%nat; sterileM theta (1 / 9 * x ^ 2) 0 [0; 3; 1; 2]%nat; sterileM theta 0 (- (4 / 9) * g * x) [2; 3; 0; 1]%nat].
(* 277-285 *)
Definition quark_charged_Ms (theta : R) (up down : lib) : result (list mel) :=
  let* V := CKM (family up) (family down) in Ok [sterileM theta (4 * V ^ 2) 0 [0; 3; 1; 2]%nat].

(* 342-441: the constant matrix elements of N -> active/lepton + meson *)
Definition neutral_scalar_K (theta : R) (sterile meson : lib) : result R :=
  let* f := decay_constant meson in
  let* y := pydiv (mass meson) (mass sterile) in
  Ok ((G_Fermi * theta * f) ^ 2 * mass sterile ^ 4 * Rabs (1 - y ^ 2)).
Definition charged_scalar_K (theta : R) (sterile lepton meson : lib) : result R :=
  let* V := CKM 1 1 in
  let* f := decay_constant meson in
  let* x := pydiv (mass lepton) (mass sterile) in
  let* y := pydiv (mass meson) (mass sterile) in
  Ok (2 * (G_Fermi * theta * f * V) ^ 2 * mass sterile ^ 4 * Rabs ((1 - x ^ 2) ^ 2 - y ^ 2 * (1 + x ^ 2))).
Definition kappa (meson : lib) : result R :=
  let n := lname meson in
  if String.eqb n "Neutral rho" then Ok (1 - 2 * sin_theta_w_2)
  else if String.eqb n "Omega" then Ok (4 * sin_theta_w_2 / 3)
  else if String.eqb n "Phi" then Ok (4 * sin_theta_w_2 / 3 - 1)
  else Raise UnboundLocalError.
Definition neutral_vector_K (theta : R) (sterile meson : lib) : result R :=
  let* f := decay_constant meson in
  let* k := kappa meson in
  let* y := pydiv (mass meson) (mass sterile) in
  Ok ((G_Fermi * theta * f * k) ^ 2 * mass sterile ^ 4 * (1 + 2 * y ^ 2) * (1 - y ^ 2)).
Definition charged_vector_K (theta : R) (sterile lepton meson : lib) : result R :=
  let* V := CKM 1 1 in
  let* f := decay_constant meson in
  let* x := pydiv (mass lepton) (mass sterile) in
  let* y := pydiv (mass meson) (mass sterile) in
  Ok (2 * (G_Fermi * theta * f * V) ^ 2 * mass sterile ^ 4 * ((1 - x ^ 2) ^ 2 + y ^ 2 * (1 + x ^ 2) - 2 * y ^ 4)).

Definition nonzero (x : R) : bool := if Req_EM_T x 0 then false else true.
Definition with_K (ts : list tmpl) (K : R) : list (tmpl * R) := map (fun t => (t, K)) ts.
(* 293-309 *)
Definition hadrons_neutral (thetas : option flavour -> R) (sterile : lib) (n m : lib) : result (list (tmpl * R)) :=
  if (Q3 m =? 0)%Z then
    match mtyp m with
    | Some Scalar => let* K := neutral_scalar_K (thetas (flav n)) sterile m in Ok (with_K (sterile_neutral_meson sterile n m) K)
    | Some Vector => let* K := neutral_vector_K (thetas (flav n)) sterile m in Ok (with_K (sterile_neutral_meson sterile n m) K)
    | None => Raise AttributeError
    end
  else Ok [].
(* 311-329: `neutrino` (325) is the variable of the preceding loop *)
Definition hadrons_charged (thetas : option flavour -> R) (sterile : lib) (neutrinos : list lib) (l m : lib) : result (list (tmpl * R)) :=
  if (Q3 m =? -3)%Z then
    match mtyp m with
    | Some Scalar => let* K := charged_scalar_K (thetas (flav l)) sterile l m in Ok (with_K (sterile_charged_meson sterile l m) K)
    | Some Vector =>
        match rev neutrinos with
        | [] => Raise UnboundLocalError
        | neutrino :: _ => let* K := charged_vector_K (thetas (flav neutrino)) sterile l m in Ok (with_K (sterile_charged_meson sterile l m) K)
        end
    | None => Raise AttributeError
    end
  else Ok [].
(* 290-339; the kinds of the integrals (331-337) are left out *)
Definition sterile_hadrons_interactions (thetas : option flavour -> R) (sterile : lib) (neutrinos leptons mesons : list lib) : result (list (tmpl * R)) :=
  let* a := traverse (fun nm => if nonzero (thetas (flav (fst nm))) then hadrons_neutral thetas sterile (fst nm) (snd nm) else Ok []) (list_prod neutrinos mesons) in
  let* b := traverse (fun lm => if nonzero (thetas (flav (fst lm))) then hadrons_charged thetas sterile neutrinos (fst lm) (snd lm) else Ok []) (list_prod leptons mesons) in
  Ok (concat a ++ concat b).

(* The interactions with their matrix elements. SM.py:543-558 *)
Definition neutrino_interactions_M (leptons neutrinos : list lib) : list (tmpl * list mel) :=
  map (fun ab => (neutrino_scattering (fst ab) (snd ab), scattering_Ms)) (cwr2 neutrinos) ++
  flat_map (fun l => map (fun n => (neutrinos_to_leptons n l, annihilation_Ms (g_L_of l n))) neutrinos) leptons.
(* 561-600 *)
Definition lepton_interactions_M (leptons neutrinos : list lib) : list (tmpl * list mel) :=
  map (fun t => (t, CC_Ms)) (lepton_interactions leptons neutrinos).
(* NuMSM.py:146-213, before integrals are filtered out *)
Definition sterile_leptons_interactions_M (thetas : option flavour -> R) (sterile : lib) (neutrinos leptons : list lib) : list (tmpl * list mel) :=
  flat_map (fun ab => let th := thetas (flav (fst ab)) in if nonzero th then
    [(fst (sterile_active_scattering sterile (fst ab) (snd ab)), fst (sterile_scattering_Ms th (fst ab) (snd ab)));
     (snd (sterile_active_scattering sterile (fst ab) (snd ab)), snd (sterile_scattering_Ms th (fst ab) (snd ab)))] else []) (list_prod neutrinos neutrinos) ++
  flat_map (fun l => flat_map (fun n =>
    (if nonzero (thetas (flav n)) then
       [(fst (sterile_NC sterile n l), sterile_NC_Ms (thetas (flav n)) (g_L_of l n)); (snd (sterile_NC sterile n l), sterile_NC_Ms (thetas (flav n)) (g_L_of l n))] else []) ++
    (if (1 <? length leptons)%nat then
       flat_map (fun ol => if (nonzero (thetas (flav l)) && flav_eqb (flav n) (flav ol))%bool then
         [(fst (sterile_CC sterile n l ol), sterile_CC_Ms (thetas (flav l))); (snd (sterile_CC sterile n l ol), sterile_CC_Ms (thetas (flav l)))] else []) (others l leptons)
     else [])) neutrinos) leptons.
(* 216-239 *)
Definition sterile_quark_interactions_M (thetas : option flavour -> R) (sterile : lib) (neutrinos leptons quarks : list lib) : result (list (tmpl * list mel)) :=
  let* ns := traverse (fun qn => if nonzero (thetas (flav (snd qn))) then
                let* Ms := quark_neutral_Ms (thetas (flav (snd qn))) (fst qn) in Ok [(sterile_quark_neutral sterile (snd qn) (fst qn), Ms)]
              else Ok []) (list_prod quarks neutrinos) in
  let* cs := traverse (fun udl => if nonzero (thetas (flav (snd udl))) then
                let* Ms := quark_charged_Ms (thetas (flav (snd udl))) (fst (fst udl)) (snd (fst udl)) in
                Ok [(sterile_quark_charged sterile (snd udl) (fst (fst udl)) (snd (fst udl)), Ms)]
              else Ok [])
        (list_prod (list_prod (filter (fun q => (Q3 q =? 2)%Z) quarks) (filter (fun q => (Q3 q =? -1)%Z) quarks)) leptons) in
  Ok (concat ns ++ concat cs).
