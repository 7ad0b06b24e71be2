(* Model of the lifetimes and of the constant matrix elements of the meson decays
   of library/SM.py. Floats are reals. *)
From Coq Require Import Reals.
From Verif Require Import Base CrossModel ParamsModel LibModel MatrixModel.
Open Scope R_scope.

(* common/__init__.py:29 *)
Definition second : R := 10 ^ 22 / (6582119 / 10 ^ 6) / MeV.

(* SM.py:99, 115, 131, 150, 169, 186, 205, 219, 233, 250, 268, 332, 345; an
   AttributeError for other particles *)
Definition lifetime (p : lib) : result R :=
  let n := lname p in
  if String.eqb n "Neutral pion" then Ok (852 / 100 / 10 ^ 17 * second)
  else if String.eqb n "Charged pion" then Ok (2603 / 1000 / 10 ^ 8 * second)
  else if String.eqb n "Charged kaon" then Ok (1238 / 1000 / 10 ^ 8 * second)
  else if String.eqb n "Kaon long" then Ok (5116 / 1000 / 10 ^ 8 * second)
  else if String.eqb n "Kaon short" then Ok (8954 / 1000 / 10 ^ 11 * second)
  else if String.eqb n "Eta" then Ok (5025 / 1000 / 10 ^ 19 * second)
  else if String.eqb n "Charged rho" then Ok (4415 / 1000 / 10 ^ 24 * second)
  else if String.eqb n "Neutral rho" then Ok (4415 / 1000 / 10 ^ 24 * second)
  else if String.eqb n "Omega" then Ok (7753 / 1000 / 10 ^ 23 * second)
  else if String.eqb n "Eta prime" then Ok (3358 / 1000 / 10 ^ 21 * second)
  else if String.eqb n "Phi" then Ok (1549 / 1000 / 10 ^ 22 * second)
  else if String.eqb n "Muon" then Ok (2197 / 1000 / 10 ^ 6 * second)
  else if String.eqb n "Tau" then Ok (2903 / 1000 / 10 ^ 13 * second)
  else Raise AttributeError.

(* 706-734: matrix_elements; the four-particle ones have no unit *)
Definition matrix_elements (n : string) : result R :=
  if String.eqb n "EtaThreePi0" then Ok (870984 / 10 ^ 7)
  else if String.eqb n "EtaPiPlusPiMinPi0" then Ok (690629 / 10 ^ 7)
  else if String.eqb n "EtaPiPlusPiMinGamma" then Ok (46653 / 10 ^ 7)
  else if String.eqb n "OmegaPiPlusPiMinPi0" then Ok (114569 / 10 ^ 2)
  else if String.eqb n "EtaPrimePiPlusPiMinEta" then Ok (43888 / 10 ^ 3)
  else if String.eqb n "EtaPrimeTwoPi0Eta" then Ok (200986 / 10 ^ 4)
  else if String.eqb n "KaonMinPi0ElecNue" then Ok (142906 / 10 ^ 18)
  else if String.eqb n "KaonMinPiPlusTwoPiMin" then Ok (185537 / 10 ^ 17)
  else if String.eqb n "KaonLPiPlusElecNue" then Ok (280345 / 10 ^ 18)
  else if String.eqb n "KaonLPiPlusMuonNumu" then Ok (303627 / 10 ^ 18)
  else if String.eqb n "KaonLThreePi0" then Ok (105573 / 10 ^ 17)
  else if String.eqb n "KaonLPiPlusPiMinPi0" then Ok (826989 / 10 ^ 18)
  else if String.eqb n "RhoPlusPiPlusPi0" then Ok (18639000 * MeV ^ 2)
  else if String.eqb n "Rho0PiPlusPiMin" then Ok (18683900 * MeV ^ 2)
  else if String.eqb n "OmegaPi0Gamma" then Ok (855086 / 10 * MeV ^ 2)
  else if String.eqb n "EtaPrimeRho0Gamma" then Ok (804463 / 100 * MeV ^ 2)
  else if String.eqb n "PhiKPlusKMin" then Ok (1287980 * MeV ^ 2)
  else if String.eqb n "PhiK0LK0S" then Ok (1034710 * MeV ^ 2)
  else if String.eqb n "PhiRho0Pi0" then Ok (286706 * MeV ^ 2)
  else if String.eqb n "EtaTwoGamma" then Ok (142174 / 10 ^ 4 * MeV ^ 2)
  else if String.eqb n "KaonMinMuonNumu" then Ok (878918 / 10 ^ 15 * MeV ^ 2)
  else if String.eqb n "KaonMinPiMinPi0" then Ok (328177 / 10 ^ 15 * MeV ^ 2)
  else if String.eqb n "KaonSTwoPi0" then Ok (6718 / 10 ^ 11 * MeV ^ 2)
  else if String.eqb n "KaonSPiPlusPiMin" then Ok (153713 / 10 ^ 12 * MeV ^ 2)
  else Raise KeyError.

(* 638-659: the matrix element of the interaction; WeakM (19-29) does not scale K *)
Definition three_decay_M (a b c : lib) (fa fb fc : bool) (ME : result R) : list (tmpl * result R) :=
  map (fun t => (t, ME)) (three_decay a b c fa fb fc).
Definition four_decay_M (a b c d : lib) (fa fb fc fd : bool) (ME : result R) : list (tmpl * result R) :=
  map (fun t => (t, ME)) (four_decay a b c d fa fb fc fd).
(* 747-951: the interactions the decay functions append, other than those of the
   products, with the constant K of their matrix element; the variables are the
   particles of the library *)
Definition meson_Ms (m : lib) : list (tmpl * result R) :=
  let n := lname m in
  if String.eqb n "Neutral pion" then map (fun t => (t, neutral_pion_K neutral_pion)) (decay_neutral_pion neutral_pion photon)
  else if String.eqb n "Charged pion" then map (fun t => (t, charged_pion_K charged_pion muon)) (decay_charged_pion charged_pion muon neutrino_mu)
  else if String.eqb n "Charged kaon" then
    four_decay_M charged_kaon neutral_pion electron neutrino_e false false false true (matrix_elements "KaonMinPi0ElecNue") ++
    four_decay_M charged_kaon charged_pion charged_pion charged_pion false true false false (matrix_elements "KaonMinPiPlusTwoPiMin") ++
    three_decay_M charged_kaon muon neutrino_mu false false true (matrix_elements "KaonMinMuonNumu") ++
    three_decay_M charged_kaon charged_pion neutral_pion false false false (matrix_elements "KaonMinPiMinPi0")
  else if String.eqb n "Kaon long" then
    four_decay_M kaon_long charged_pion electron neutrino_e false true false true (matrix_elements "KaonLPiPlusElecNue") ++
    four_decay_M kaon_long charged_pion muon neutrino_mu false true false true (matrix_elements "KaonLPiPlusMuonNumu") ++
    four_decay_M kaon_long neutral_pion neutral_pion neutral_pion false false false false (matrix_elements "KaonLThreePi0") ++
    four_decay_M kaon_long neutral_pion charged_pion charged_pion false false false true (matrix_elements "KaonLPiPlusPiMinPi0")
  else if String.eqb n "Kaon short" then
    three_decay_M kaon_short neutral_pion neutral_pion false false false (matrix_elements "KaonSTwoPi0") ++
    three_decay_M kaon_short charged_pion charged_pion false false true (matrix_elements "KaonSPiPlusPiMin")
  else if String.eqb n "Eta" then
    three_decay_M eta photon photon false false false (matrix_elements "EtaTwoGamma") ++
    four_decay_M eta neutral_pion neutral_pion neutral_pion false false false false (matrix_elements "EtaThreePi0") ++
    four_decay_M eta neutral_pion charged_pion charged_pion false false false true (matrix_elements "EtaPiPlusPiMinPi0") ++
    four_decay_M eta photon charged_pion charged_pion false false false true (matrix_elements "EtaPiPlusPiMinGamma")
  else if String.eqb n "Neutral rho" then three_decay_M neutral_rho charged_pion charged_pion false true false (matrix_elements "Rho0PiPlusPiMin")
  else if String.eqb n "Charged rho" then three_decay_M charged_rho charged_pion neutral_pion false false false (matrix_elements "RhoPlusPiPlusPi0")
  else if String.eqb n "Omega" then
    four_decay_M omega charged_pion charged_pion neutral_pion false true false false (matrix_elements "OmegaPiPlusPiMinPi0") ++
    three_decay_M omega neutral_pion photon false false false (matrix_elements "OmegaPi0Gamma")
  else if String.eqb n "Eta prime" then
    four_decay_M eta_prime eta charged_pion charged_pion false false false true (matrix_elements "EtaPrimePiPlusPiMinEta") ++
    four_decay_M eta_prime neutral_pion neutral_pion eta false false false false (matrix_elements "EtaPrimeTwoPi0Eta") ++
    three_decay_M eta_prime neutral_rho photon false false false (matrix_elements "EtaPrimeRho0Gamma")
  else if String.eqb n "Phi" then
    three_decay_M phi charged_kaon charged_kaon false true false (matrix_elements "PhiKPlusKMin") ++
    three_decay_M phi kaon_long kaon_short false false false (matrix_elements "PhiK0LK0S") ++
    three_decay_M phi neutral_rho neutral_pion false false false (matrix_elements "PhiRho0Pi0")
  else [].
