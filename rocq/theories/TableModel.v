(* The attribute `statistics` of the particles of library/SM.py and
   library/NuMSM.py, and the tables as a whole. The other attributes are in
   LibModel.v. *)
From Verif Require Import Base CrossModel LibModel.

(* common/statistics: FERMION, BOSON *)
Inductive stat := Fermion | Boson.
(* SM.py:53, 62, 72, 81, 90, 105, 121, 142, 161, 178, 197, 211, 225, 242, 260,
   280, 291, 302, 313, 323, 338, 397, 407, 417, 427, 437, 447; NuMSM.py:48, 62 *)
Definition statistics (p : lib) : stat :=
  if existsb (String.eqb (lname p)) ["Photon"; "Gluon"; "Neutral pion"; "Charged pion"; "Charged kaon"; "Kaon long"; "Kaon short"; "Eta";
    "Charged rho"; "Neutral rho"; "Omega"; "Eta prime"; "Phi"]%string then Boson else Fermion.

(* SM.py:50-453, in the order of the file *)
Definition SM_table : list lib :=
  [photon; gluon; neutron; proton; neutral_pion; charged_pion; charged_kaon; kaon_long; kaon_short; eta; charged_rho; neutral_rho; omega; eta_prime; phi;
   neutrino_e; neutrino_mu; neutrino_tau; electron; muon; tau; up; down; charm; strange; top; bottom].
