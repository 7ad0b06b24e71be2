(* Model of the particle tables and of the interactions of library/SM.py (SM)
   and library/NuMSM.py (NuMSM): which reactions are built, with which
   particles and antiparticle flags. The matrix elements are in MatrixModel.v. *)
From Verif Require Import Base CrossModel.

(* ------------------------------------------------------------------ *)
(* Particles. The attributes used here; `sp` holds the object identity, name,
   mass (in eV) and majorana flag. Charges are in thirds of the elementary
   charge (the floats 2./3. and -1./3. are 2 and -1), branching ratios in
   millionths. A missing attribute is None; `fast_decay` is only tested with
   hasattr. A particle without flavour is given the flavour None instead of
   raising AttributeError when it is compared. `family` is 0 when missing. *)
Inductive flavour := Fe | Fmu | Ftau.
Inductive mtype := Scalar | Vector.
Record lib := mkLib { sp : specie; symbol : string; Q3 : Z; flav : option flavour; fast_decay : bool;
  BR : option (list (string * Z)); mtyp : option mtype; ldof : Z; family : nat }.
Definition lname (p : lib) : string := sname (sp p).

(* SM.py:50-453 *)
(* 50-57 *)
Definition photon := mkLib (mkSpecie 0 "Photon" 0 true) "γ" (0) None false None None 2 0.
(* 59-66 *)
Definition gluon := mkLib (mkSpecie 1 "Gluon" 0 true) "g" (0) None false None None 16 0.
(* 69-77 *)
Definition neutron := mkLib (mkSpecie 2 "Neutron" 939565378 false) "n" (0) None false None None 4 0.
(* 78-86 *)
Definition proton := mkLib (mkSpecie 3 "Proton" 938272046 false) "p" (-3) None false None None 4 0.
(* 87-101 *)
Definition neutral_pion := mkLib (mkSpecie 4 "Neutral pion" 134980000 true) "π0" (0) None true (Some [("γγ"%string, 988230%Z)]) (Some Scalar) 1 0.
(* 102-117 *)
Definition charged_pion := mkLib (mkSpecie 5 "Charged pion" 139570000 false) "π" (-3) None true (Some [("μν_μ"%string, 999877%Z)]) (Some Scalar) 2 0.
(* 118-138 *)
Definition charged_kaon := mkLib (mkSpecie 6 "Charged kaon" 493677000 false) "K" (-3) None true (Some [("π0eν_e"%string, 50700%Z); ("πππ"%string, 55830%Z); ("μν_μ"%string, 635600%Z); ("ππ0"%string, 206700%Z)]) (Some Scalar) 2 0.
(* 139-157 *)
Definition kaon_long := mkLib (mkSpecie 7 "Kaon long" 497611000 true) "K0L" (0) None true (Some [("πeν_e"%string, 405500%Z); ("πμν_μ"%string, 270400%Z); ("π0π0π0"%string, 195200%Z); ("πππ0"%string, 125400%Z)]) (Some Scalar) 1 0.
(* 158-174 *)
Definition kaon_short := mkLib (mkSpecie 8 "Kaon short" 497611000 true) "K0S" (0) None true (Some [("ππ"%string, 692000%Z); ("π0π0"%string, 306900%Z)]) (Some Scalar) 1 0.
(* 175-193 *)
Definition eta := mkLib (mkSpecie 9 "Eta" 547860000 true) "η" (0) None true (Some [("γγ"%string, 394100%Z); ("π0π0π0"%string, 326800%Z); ("πππ0"%string, 229200%Z); ("ππγ"%string, 42200%Z)]) (Some Scalar) 1 0.
(* 194-207 *)
Definition charged_rho := mkLib (mkSpecie 10 "Charged rho" 775110000 false) "ρ" (-3) None true (Some [("ππ0"%string, 1000000%Z)]) (Some Vector) 6 0.
(* 208-221 *)
Definition neutral_rho := mkLib (mkSpecie 11 "Neutral rho" 775490000 true) "ρ0" (0) None true (Some [("ππ"%string, 1000000%Z)]) (Some Vector) 3 0.
(* 222-238 *)
Definition omega := mkLib (mkSpecie 12 "Omega" 782650000 true) "ω" (0) None true (Some [("πππ0"%string, 892000%Z); ("π0γ"%string, 84000%Z)]) (Some Vector) 3 0.
(* 239-256 *)
Definition eta_prime := mkLib (mkSpecie 13 "Eta prime" 957780000 true) "η*" (0) None true (Some [("ππη"%string, 426000%Z); ("ρ0γ"%string, 289000%Z); ("π0π0η"%string, 228000%Z)]) (Some Scalar) 1 0.
(* 257-274 *)
Definition phi := mkLib (mkSpecie 14 "Phi" 1019460000 true) "ϕ" (0) None true (Some [("KK"%string, 489000%Z); ("K0LK0S"%string, 342000%Z); ("ρ0π0"%string, 153200%Z)]) (Some Vector) 3 0.
(* 277-287 *)
Definition neutrino_e := mkLib (mkSpecie 15 "Electron neutrino" 0 false) "ν_e" (0) (Some Fe) false None None 2 0.
(* 288-298 *)
Definition neutrino_mu := mkLib (mkSpecie 16 "Muon neutrino" 0 false) "ν_μ" (0) (Some Fmu) false None None 2 0.
(* 299-309 *)
Definition neutrino_tau := mkLib (mkSpecie 17 "Tau neutrino" 0 false) "ν_τ" (0) (Some Ftau) false None None 2 0.
(* 310-319 *)
Definition electron := mkLib (mkSpecie 18 "Electron" 511000 false) "e" (-3) (Some Fe) false None None 4 0.
(* 320-334 *)
Definition muon := mkLib (mkSpecie 19 "Muon" 105658000 false) "μ" (-3) (Some Fmu) true (Some [("eν_eν_μ"%string, 1000000%Z)]) None 4 0.
(* 335-346 *)
Definition tau := mkLib (mkSpecie 20 "Tau" 1776820000 false) "τ" (-3) (Some Ftau) true None None 4 0.
(* 394-403 *)
Definition up := mkLib (mkSpecie 21 "Up quark" 2200000 false) "u" (2) None false None None 12 1.
(* 404-413 *)
Definition down := mkLib (mkSpecie 22 "Down quark" 4700000 false) "d" (-1) None false None None 12 1.
(* 414-423 *)
Definition charm := mkLib (mkSpecie 23 "Charm quark" 1280000000 false) "c" (2) None false None None 12 2.
(* 424-433 *)
Definition strange := mkLib (mkSpecie 24 "Strange quark" 96000000 false) "s" (-1) None false None None 12 2.
(* 434-443 *)
Definition top := mkLib (mkSpecie 25 "Top quark" 173100000000 false) "t" (2) None false None None 12 3.
(* 444-453 *)
Definition bottom := mkLib (mkSpecie 26 "Bottom quark" 4180000000 false) "b" (-1) None false None None 12 3.
(* NuMSM.py:43-69; the object identity, mass and name are those of the caller *)
Definition sterile_neutrino (id : nat) (mass : Z) := mkLib (mkSpecie id "Sterile neutrino (Majorana)" mass true) "N" 0 None false None None 2 0.
Definition dirac_sterile_neutrino (id : nat) (mass : Z) := mkLib (mkSpecie id "Sterile neutrino (Dirac)" mass false) "N" 0 None false None None 4 0.

(* ------------------------------------------------------------------ *)
(* An interaction: particles and antiparticle flags given to
   CrossGeneratingInteraction. *)
Record tmpl := mkTmpl { tparts : list lib * list lib; tflags : list bool * list bool }.
Definition species_of (t : tmpl) : list specie * list specie := (map sp (fst (tparts t)), map sp (snd (tparts t))).
Definition titems (t : tmpl) : list item := base_items (species_of t) (tflags t).
(* its integrals, given by their reactions; the deduplication
   (interactions/__init__.py:238-284) keeps one reaction of each set of
   reactions with the same particle and the same species on each side, on which
   all the functions below give the same answer *)
Definition reactions_of (t : tmpl) : list (list item) :=
  match reactions_map (species_of t) (tflags t) with Ok rs => rs | Raise _ => [] end.

Definition tmpl22 (a b c d : lib) (fa fb fc fd : bool) : tmpl := mkTmpl ([a; b], [c; d]) ([fa; fb], [fc; fd]).
Definition tmpl12 (a b c : lib) (fa fb fc : bool) : tmpl := mkTmpl ([a], [b; c]) ([fa], [fb; fc]).

(* SM.py:461-479 *)
Definition neutrino_scattering (a b : lib) : tmpl := tmpl22 a b a b false false false false.
(* 482-510 *)
Definition neutrinos_to_leptons (neutrino lepton : lib) : tmpl := tmpl22 neutrino neutrino lepton lepton false true false true.
(* 513-524 *)
Definition leptons_CC (active1 active2 lepton1 lepton2 : lib) : tmpl := tmpl22 lepton1 lepton2 active1 active2 false true false true.
(* 527-540 *)
Definition leptons_leptons_NC (lepton1 lepton2 : lib) : tmpl := tmpl22 lepton1 lepton2 lepton1 lepton2 false false false false.
(* 603-621 *)
Definition decay_charged_pion (meson lepton neutrino : lib) : list tmpl :=
  [tmpl12 meson lepton neutrino false false true; tmpl12 meson lepton neutrino true true false].
(* 624-635 *)
Definition decay_neutral_pion (meson ph : lib) : list tmpl := [tmpl12 meson ph ph false false false].
(* 638-647, 650-659 *)
Definition four_decay (a b c d : lib) (fa fb fc fd : bool) : list tmpl := [tmpl22 a b c d fa fb fc fd].
Definition three_decay (a b c : lib) (fa fb fc : bool) : list tmpl := [tmpl12 a b c fa fb fc].
(* 990-999 *)
Definition baryons_interaction (n p nu e : lib) : tmpl := mkTmpl ([n], [p; e; nu]) ([false], [false; false; true]).

(* itertools.combinations_with_replacement(l, 2) *)
Fixpoint cwr2 {A} (l : list A) : list (A * A) := match l with [] => [] | x :: t => map (pair x) (x :: t) ++ cwr2 t end.
(* 543-558 *)
Definition neutrino_interactions (leptons neutrinos : list lib) : list tmpl :=
  map (fun ab => neutrino_scattering (fst ab) (snd ab)) (cwr2 neutrinos) ++
  flat_map (fun l => map (fun n => neutrinos_to_leptons n l) neutrinos) leptons.
(* `par != x`: object identity *)
Definition others (x : lib) (l : list lib) : list lib := filter (fun y => negb (sid (sp y) =? sid (sp x))) l.
Definition flav_eqb (a b : option flavour) : bool :=
  match a, b with
  | None, None | Some Fe, Some Fe | Some Fmu, Some Fmu | Some Ftau, Some Ftau => true
  | _, _ => false
  end.
(* 561-600 *)
Definition lepton_interactions (leptons neutrinos : list lib) : list tmpl :=
  flat_map (fun l => flat_map (fun n =>
    if ((1 <? length leptons) && (1 <? length neutrinos))%bool then
      flat_map (fun ol => flat_map (fun on =>
        if (flav_eqb (flav n) (flav l) && flav_eqb (flav on) (flav ol))%bool then [leptons_CC n on l ol] else [])
        (others n neutrinos)) (others l leptons)
    else []) neutrinos) leptons.

(* ------------------------------------------------------------------ *)
(* meson_interactions, 662-987. The arguments other than primary_mesons and
   kind; the lists are not None. mt0 is muon_tau[0]. *)
Record menv := mkEnv { leptons : list lib; neutrinos : list lib; mesons : list lib; photons : list lib; mt0 : nat }.
(* 666-703: the last particle of that name; an unassigned local read from a
   nested function is a NameError *)
Definition named (n : string) (l : list lib) : option lib :=
  fold_left (fun acc p => if String.eqb (lname p) n then Some p else acc) l None.
Definition var (n : string) (l : list lib) : result lib := match named n l with Some p => Ok p | None => Raise NameError end.
(* 667: the list [] is used as a particle when there is no photon; it has no
   attribute mass *)
Definition photon_var (E : menv) : result lib := match photons E with p :: _ => Ok p | [] => Raise AttributeError end.

(* 736-745 *)
Definition mentions (n : string) (t : tmpl) : bool := existsb (existsb (fun it => String.eqb (sname (ispecie it)) n)) (reactions_of t).
Definition already_there (inters : list tmpl) (n : string) : bool := existsb (mentions n) inters.

(* 747-750 *)
Definition neutral_pion_decay (E : menv) (inters : list tmpl) : result (list tmpl) :=
  let* m := var "Neutral pion" (mesons E) in let* ph := photon_var E in Ok (inters ++ decay_neutral_pion m ph).
(* 752-761 *)
Definition charged_pion_decay (E : menv) (inters : list tmpl) : result (list tmpl) :=
  let inters := if negb (negb (mt0 E =? 0) || already_there inters "Muon") then inters ++ lepton_interactions (leptons E) (neutrinos E) else inters in
  let* m := var "Charged pion" (mesons E) in let* l := var "Muon" (leptons E) in let* n := var "Muon neutrino" (neutrinos E) in
  Ok (inters ++ decay_charged_pion m l n).
(* `if not already_there(inters, n): f(inters)` *)
Definition unless_there (n : string) (f : list tmpl -> result (list tmpl)) (inters : list tmpl) : result (list tmpl) :=
  if already_there inters n then Ok inters else f inters.
Definition pions (E : menv) (inters : list tmpl) : result (list tmpl) :=
  let* i := unless_there "Charged pion" (charged_pion_decay E) inters in unless_there "Neutral pion" (neutral_pion_decay E) i.
(* 763-790; the interactions built at 770-773 are discarded *)
Definition charged_kaon_decay (E : menv) (inters : list tmpl) : result (list tmpl) :=
  let* i := pions E inters in
  let* k := var "Charged kaon" (mesons E) in let* p0 := var "Neutral pion" (mesons E) in
  let* e := var "Electron" (leptons E) in let* ne := var "Electron neutrino" (neutrinos E) in
  let* p := var "Charged pion" (mesons E) in let* mu := var "Muon" (leptons E) in let* nm := var "Muon neutrino" (neutrinos E) in
  Ok (i ++ four_decay k p0 e ne false false false true ++ four_decay k p p p false true false false
        ++ three_decay k mu nm false false true ++ three_decay k p p0 false false false).
(* 792-819; likewise at 799-802 *)
Definition kaon_long_decay (E : menv) (inters : list tmpl) : result (list tmpl) :=
  let* i := pions E inters in
  let* k := var "Kaon long" (mesons E) in let* p := var "Charged pion" (mesons E) in
  let* e := var "Electron" (leptons E) in let* ne := var "Electron neutrino" (neutrinos E) in
  let* mu := var "Muon" (leptons E) in let* nm := var "Muon neutrino" (neutrinos E) in let* p0 := var "Neutral pion" (mesons E) in
  Ok (i ++ four_decay k p e ne false true false true ++ four_decay k p mu nm false true false true
        ++ four_decay k p0 p0 p0 false false false false ++ four_decay k p0 p p false false false true).
(* 821-835 *)
Definition kaon_short_decay (E : menv) (inters : list tmpl) : result (list tmpl) :=
  let* i := pions E inters in
  let* k := var "Kaon short" (mesons E) in let* p0 := var "Neutral pion" (mesons E) in let* p := var "Charged pion" (mesons E) in
  Ok (i ++ three_decay k p0 p0 false false false ++ three_decay k p p false false true).
(* 837-859 *)
Definition eta_decay (E : menv) (inters : list tmpl) : result (list tmpl) :=
  let* i := pions E inters in
  let* m := var "Eta" (mesons E) in let* ph := photon_var E in let* p0 := var "Neutral pion" (mesons E) in let* p := var "Charged pion" (mesons E) in
  Ok (i ++ three_decay m ph ph false false false ++ four_decay m p0 p0 p0 false false false false
        ++ four_decay m p0 p p false false false true ++ four_decay m ph p p false false false true).
(* 861-868 *)
Definition neutral_rho_decay (E : menv) (inters : list tmpl) : result (list tmpl) :=
  let* i := unless_there "Charged pion" (charged_pion_decay E) inters in
  let* m := var "Neutral rho" (mesons E) in let* p := var "Charged pion" (mesons E) in
  Ok (i ++ three_decay m p p false true false).
(* 870-880 *)
Definition charged_rho_decay (E : menv) (inters : list tmpl) : result (list tmpl) :=
  let* i := pions E inters in
  let* m := var "Charged rho" (mesons E) in let* p := var "Charged pion" (mesons E) in let* p0 := var "Neutral pion" (mesons E) in
  Ok (i ++ three_decay m p p0 false false false).
(* 882-896 *)
Definition omega_decay (E : menv) (inters : list tmpl) : result (list tmpl) :=
  let* i := pions E inters in
  let* m := var "Omega" (mesons E) in let* p := var "Charged pion" (mesons E) in let* p0 := var "Neutral pion" (mesons E) in let* ph := photon_var E in
  Ok (i ++ four_decay m p p p0 false true false false ++ three_decay m p0 ph false false false).
(* 898-922 *)
Definition eta_prime_decay (E : menv) (inters : list tmpl) : result (list tmpl) :=
  let* i := unless_there "Neutral rho" (neutral_rho_decay E) inters in
  let* i := unless_there "Eta" (eta_decay E) i in
  let* i := pions E i in
  let* m := var "Eta prime" (mesons E) in let* et := var "Eta" (mesons E) in let* p := var "Charged pion" (mesons E) in
  let* p0 := var "Neutral pion" (mesons E) in let* r := var "Neutral rho" (mesons E) in let* ph := photon_var E in
  Ok (i ++ four_decay m et p p false false false true ++ four_decay m p0 p0 et false false false false
        ++ three_decay m r ph false false false).
(* 924-951 *)
Definition phi_decay (E : menv) (inters : list tmpl) : result (list tmpl) :=
  let* i := unless_there "Neutral rho" (neutral_rho_decay E) inters in
  let* i := unless_there "Charged kaon" (charged_kaon_decay E) i in
  let* i := unless_there "Kaon long" (kaon_long_decay E) i in
  let* i := unless_there "Kaon short" (kaon_short_decay E) i in
  let* i := unless_there "Neutral pion" (neutral_pion_decay E) i in
  let* m := var "Phi" (mesons E) in let* k := var "Charged kaon" (mesons E) in let* kl := var "Kaon long" (mesons E) in
  let* ks := var "Kaon short" (mesons E) in let* r := var "Neutral rho" (mesons E) in let* p0 := var "Neutral pion" (mesons E) in
  Ok (i ++ three_decay m k k false true false ++ three_decay m kl ks false false false ++ three_decay m r p0 false false false).
(* 953-985 *)
Definition primary_decay (E : menv) (n : string) (inters : list tmpl) : result (list tmpl) :=
  if String.eqb n "Neutral pion" then neutral_pion_decay E inters
  else if String.eqb n "Charged pion" then charged_pion_decay E inters
  else if String.eqb n "Charged kaon" then charged_kaon_decay E inters
  else if String.eqb n "Kaon long" then kaon_long_decay E inters
  else if String.eqb n "Kaon short" then kaon_short_decay E inters
  else if String.eqb n "Eta" then eta_decay E inters
  else if String.eqb n "Neutral rho" then neutral_rho_decay E inters
  else if String.eqb n "Charged rho" then charged_rho_decay E inters
  else if String.eqb n "Omega" then omega_decay E inters
  else if String.eqb n "Eta prime" then eta_prime_decay E inters
  else if String.eqb n "Phi" then phi_decay E inters
  else Ok inters.
Definition meson_interactions (E : menv) (primary : list lib) : result (list tmpl) :=
  rfold (fun inters m => primary_decay E (lname m) inters) [] primary.

(* ------------------------------------------------------------------ *)
(* Branching ratios, common/kinematics.py:364-368 and 415-418. The characters
   of a string (the symbols use ASCII and two-byte UTF-8 characters); the keys
   whose Counter equals that of the concatenated symbols, the last one wins. *)
Fixpoint glyphs (s : string) : list string :=
  match s with
  | EmptyString => []
  | String c r => if Ascii.nat_of_ascii c <? 128 then String c EmptyString :: glyphs r
                  else match r with String d r' => String c (String d EmptyString) :: glyphs r' | EmptyString => [s] end
  end.
Definition count_glyph (g : string) (l : list string) : nat := length (filter (String.eqb g) l).
Definition same_glyphs (a b : string) : bool :=
  forallb (fun g => count_glyph g (glyphs a) =? count_glyph g (glyphs b)) (glyphs a ++ glyphs b).
Definition joined (l : list lib) : string := fold_right String.append EmptyString (map symbol l).
(* an AttributeError without the attribute BR *)
Definition branching (parent : lib) (products : list lib) : result (option Z) :=
  match BR parent with
  | None => Raise AttributeError
  | Some table => Ok (fold_left (fun acc kv => if same_glyphs (joined products) (fst kv) then Some (snd kv) else acc) table None)
  end.

(* ------------------------------------------------------------------ *)
(* NuMSM.py. `mix` tells whether thetas[flavour] is non-zero (thetas is a
   Counter: a missing flavour is 0). *)
(* 75-97 *)
Definition sterile_active_scattering (sterile a b : lib) : tmpl * tmpl :=
  (tmpl22 sterile b a b false false false false, tmpl22 a b sterile b false false false false).
(* 100-121 *)
Definition sterile_NC (sterile active lepton : lib) : tmpl * tmpl :=
  (tmpl22 sterile active lepton lepton false true true false, tmpl22 sterile active lepton lepton true false false true).
(* 124-143 *)
Definition sterile_CC (sterile active lepton1 lepton2 : lib) : tmpl * tmpl :=
  (tmpl22 sterile active lepton2 lepton1 false true true false, tmpl22 active sterile lepton1 lepton2 false true true false).
(* 242-267, 270-287 *)
Definition sterile_quark_neutral (sterile active quark : lib) : tmpl := tmpl22 sterile active quark quark false true false true.
Definition sterile_quark_charged (sterile lepton u d : lib) : tmpl := tmpl22 sterile lepton u d false true false true.
(* 342-441: neutral and charged mesons; the same for scalar and vector ones *)
Definition sterile_neutral_meson (sterile active meson : lib) : list tmpl :=
  [tmpl12 sterile active meson false false false; tmpl12 sterile active meson true true false].
Definition sterile_charged_meson (sterile lepton meson : lib) : list tmpl :=
  [tmpl12 sterile lepton meson false false true; tmpl12 sterile lepton meson true true false].

(* an interaction whose integrals have been filtered *)
Definition inter := (tmpl * list (list item))%type.
Definition plain (t : tmpl) : inter := (t, reactions_of t).
Definition first_name (r : list item) : string := match r with it :: _ => sname (ispecie it) | [] => EmptyString end.
(* 154-168 *)
Definition scattering_pair (sterile a b : lib) : list inter :=
  let '(t0, t1) := sterile_active_scattering sterile a b in
  let firsts := map first_name (reactions_of t0) in
  [plain t0; (t1, filter (fun r => negb (existsb (String.eqb (first_name r)) firsts)) (reactions_of t1))].
Definition count_name (n : string) (sd : Z) (r : list item) : nat :=
  length (filter (fun it => (iside it =? sd)%Z && String.eqb (sname (ispecie it)) n)%bool r).
(* 171-188 *)
Definition nc_keep (sterile lepton : lib) (r : list item) : bool :=
  negb (negb (String.eqb (first_name r) (lname sterile)) && (count_name (lname lepton) (-1) r =? 1)).
Definition nc_pair (sterile n l : lib) : list inter :=
  let '(t0, t1) := sterile_NC sterile n l in
  if (String.eqb (lname l) "Muon" || String.eqb (lname l) "Tau")%bool then
    [(t0, filter (nc_keep sterile l) (reactions_of t0));
     (t1, filter (fun r => negb (String.eqb (first_name r) (lname l))) (filter (nc_keep sterile l) (reactions_of t1)))]
  else [plain t0; plain t1].
(* 190-206 *)
Definition cc_keep (sterile other : lib) (r : list item) : bool :=
  (fold_right Z.add 0 (map iside (filter (fun it => String.eqb (sname (ispecie it)) (lname other) || String.eqb (sname (ispecie it)) (lname sterile))%bool r)) =? 0)%Z.
Definition cc_pair (sterile n l ol : lib) : list inter :=
  let '(t0, t1) := sterile_CC sterile n l ol in
  [(t0, filter (cc_keep sterile ol) (reactions_of t0)); (t1, filter (cc_keep sterile ol) (reactions_of t1))].
(* 146-213 *)
Definition sterile_leptons_interactions (mix : option flavour -> bool) (sterile : lib) (neutrinos leptons : list lib) : list inter :=
  flat_map (fun ab => if mix (flav (fst ab)) then scattering_pair sterile (fst ab) (snd ab) else []) (list_prod neutrinos neutrinos) ++
  flat_map (fun l => flat_map (fun n =>
    (if mix (flav n) then nc_pair sterile n l else []) ++
    (if 1 <? length leptons then
       flat_map (fun ol => if (mix (flav l) && flav_eqb (flav n) (flav ol))%bool then cc_pair sterile n l ol else []) (others l leptons)
     else [])) neutrinos) leptons.
(* 216-239; a quark of another charge makes sterile_quark_neutral read an
   unassigned local (248-251) *)
Definition sterile_quark_interactions (mix : option flavour -> bool) (sterile : lib) (neutrinos leptons quarks : list lib) : result (list tmpl) :=
  let* ns := traverse (fun qn => if mix (flav (snd qn)) then
                if ((Q3 (fst qn) =? 2) || (Q3 (fst qn) =? -1))%Z%bool then Ok [sterile_quark_neutral sterile (snd qn) (fst qn)] else Raise UnboundLocalError
              else Ok []) (list_prod quarks neutrinos) in
  Ok (concat ns ++
      flat_map (fun ud => flat_map (fun l => if mix (flav l) then [sterile_quark_charged sterile l (fst ud) (snd ud)] else []) leptons)
        (list_prod (filter (fun q => (Q3 q =? 2)%Z) quarks) (filter (fun q => (Q3 q =? -1)%Z) quarks))).

(* ------------------------------------------------------------------ *)
(* interactions_decay_products, 444-499. The primary interactions are given by
   the reactions of their integrals; the sums of sides are those of
   utils.reaction_type (common/utils.py:125-142). *)
Inductive pkind := KCreation | KDecay | KF1vac | KFfvac.
Definition side_sum (r : list item) : Z := fold_right Z.add 0%Z (map iside r).
Definition creation_type (r : list item) : bool := existsb (Z.eqb (side_sum r)) [-1; -2]%Z.
Definition decay_type (r : list item) : bool := existsb (Z.eqb (side_sum r)) [1; 2]%Z.
Definition produced (primary : list (list (list (list item)))) (n : string) : nat :=
  list_sum (map (count_name n 1) (concat (concat primary))).
Definition decay_products (E : menv) (primary : list (list (list (list item)))) (muon_dec vacuum : bool) : result (list (tmpl * list (list item * pkind))) :=
  let leps := if ((0 <? produced primary "Muon") && negb muon_dec || (0 <? produced primary "Tau"))%bool
              then lepton_interactions (leptons E) (neutrinos E) else [] in
  let primary_mesons := filter (fun m => 0 <? produced primary (lname m)) (mesons E) in
  let mu := produced primary "Muon" + (if muon_dec then 1 else 0) in
  let* ms := match primary_mesons with
             | [] => Ok []
             | _ => meson_interactions (mkEnv (leptons E) (neutrinos E) (mesons E) (photons E) mu) primary_mesons
             end in
  Ok (map (fun t => (t, map (fun r => (r, if creation_type r then (if vacuum then KF1vac else KCreation) else (if vacuum then KFfvac else KDecay)))
                          (filter (fun r => creation_type r || decay_type r)%bool (reactions_of t)))) (leps ++ ms)).
