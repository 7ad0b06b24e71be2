# Formal model of pyBBN in Rocq: design

The subject is the cosmology code in `/repo` (pyBBN): a Python driver, Python
particle/thermodynamics modules and two C++ extensions that evaluate Boltzmann
collision integrals. The model lives in `rocq/theories` (logical name `Verif`).

## Modelling conventions

* Real-valued physics is modelled over Coq's `R` (standard library `Reals`).
  Floating-point rounding is not modelled. Where IEEE special values decide
  control flow (NaN/inf temperatures, NaN collision integrals, `log(1/0-1)` in
  the interpolation) an explicit extended type `Fin r | PInf | NInf | NaN` is used.
* Data structures (arrays, deques, particle lists, reactions) are polymorphic lists,
  `nat`/`Z` indices, records. numpy storage is a list with an explicit capacity.
* Python exceptions and process exit are values of a result type, with the
  exception class kept.
* Unbounded loops are either inductive relations or fuelled functions with a
  theorem that some fuel suffices (fuel exhaustion is a separate outcome that no
  theorem counts as success).
* External routines (numpy `leggauss`/`laggauss`, scipy `simps`, GSL adaptive
  quadrature, the wall clock, user callbacks) are Section variables, hence
  universally quantified in the closed theorems; quadratures are arbitrary node and
  weight lists or arbitrary linear functionals.
* Every model definition cites file and lines in `/repo` and its simplifications.
* Each area has `XModel.v` (definitions only), `XSpec.v`/`XProofs.v`
  (independent specification and lemmas) and `XProps.v` (the theorems, each with a
  concrete `Example` meeting the hypotheses, and `Print Assumptions`).

## Properties that are false of the code

When reading the code shows that a property a user would rely on is *not* met, the
faithful model refutes it: the theorem is named `..._refuted` and states the
negation of the property with a witness (and, where useful, a companion theorem that
states what does hold). These are listed as findings at the end of this file.

## Plan per property

| id | property | area | how |
|---|---|---|---|
| C01 | Append-only arrays behave like lists | Arrays | storage as list of rows with explicit reallocation; simulation proof against list push/pop by induction over operations |
| C02 | Append never runs out of storage | Arrays | capacity invariant by induction; every indexed store is option-checked in the model |
| C03 | Columns of recorded dictionaries | Arrays | rows built by declared column lookup; column projection lemma |
| C04 | Negative row indices count from the end | Arrays | expected FALSE of the code (index is length+1-k counted with a negative k); refutation for every k plus what is actually returned |
| C05 | Truncating an empty array is harmless | Arrays | expected FALSE; refutation witness |
| C06 | Universe histories are independent | Arrays | heap of shared history objects; expected FALSE (class attribute); refutation plus the law that does hold |
| C07 | ring_deque is bounded and keeps the newest items | Arrays | expected FALSE for the size bound (holds length+1); exact size law proved instead |
| C08 | ring_deque running extremes | Arrays | fold over appended values |
| C09 | Throttler rate limit | Arrays | arbitrary clock sequence as a list of reals |
| C10 | Boolean options can be switched off by the environment | Env | expected FALSE; strings |
| C11 | Typed and untyped options | Env | strings and a typed default table |
| C12 | getboolenv truth table | Env | strings |
| C13 | Reaction classification is a partition | Reactions | sides as booleans/Z; count law |
| C14 | Species and interaction filters | Reactions | lists |
| C15 | Particle ordering | Reactions | sort model + permutation/sortedness |
| C16 | Scale-factor bookkeeping invariants | Params | state record over R; invariant by induction over updates |
| C17 | Scale factor and time are strictly increasing | Params | closed forms by induction |
| C18 | Friedmann equation | Params | sqrt algebra |
| C19 | N_eff counts standard neutrinos | Params | field algebra over R |
| C20 | Params construction errors | Params | keyword arguments as options; result type |
| C21 | evolve() postcondition | Evolve | loop as an inductive relation/fuelled function over an extended real temperature; induction over the run |
| C22 | evolve() never returns on a broken temperature | Evolve | same |
| C23 | Exported snapshots are prefixes of the history | Evolve | file-system state with the export events; induction over the run |
| C24 | Export is crash-safe | Evolve | write modelled as truncate-then-write micro-steps with crash points; expected FALSE |
| C25 | KAWANO table covers exactly the cold steps | Evolve | induction over steps |
| C26 | Temperature derivative passed to KAWANO | Evolve | Coquelicot is_derive |
| C27 | Pure radiation universe | Thermo | numerators vanish; induction over steps |
| C28 | QCD transition conserves entropy | Params | power algebra |
| C29 | First temperature step is Euler | Integrators | expected FALSE: the recorded initial row has fraction 0, so the second-order formula yields 3/2 h f |
| C30 | Adams-Bashforth order conditions | Integrators | polynomial increments (integral of a polynomial) in closed form |
| C31 | Adams-Bashforth argument checking | Integrators | result type, case analysis on lengths |
| C32 | Adams-Moulton solves the implicit step | Integrators | field |
| C33 | Adams-Moulton accepts every order it lists | Integrators | expected FALSE for order 1 with non-empty history (fs[-0:] is the whole list) |
| C34 | Implicit Euler | Integrators | field, sign analysis |
| C35 | Euler and Heun corrections | Integrators | ring |
| C36 | Fixed-order quadrature laws | Quadrature | weighted finite sums |
| C37 | Double quadrature equals iterated quadrature | Quadrature | weighted finite sums |
| C38 | No collisions, no change | Particle | expected FALSE (the solver value y is used as the collision integral) |
| C39 | Linear momentum grid | Grids | R sequences |
| C40 | Logarithmic momentum grid | Grids | geometric sums |
| C41 | Heuristic grid construction terminates | Grids | while loop as fuelled recursion with explicit fuel bound |
| C42 | Linear interpolation interpolates | Interp | expected FALSE between nodes (cell chosen is one to the right) |
| C43 | Linear interpolation is exact on affine data | Interp | expected FALSE in the last cell, true elsewhere |
| C44 | Cubic interpolation interpolates | Interp | piecewise cubic algebra |
| C45 | Grid search is correct | Interp | binary search with measure, loop invariant |
| C46 | Interpolation reproduces equilibrium exactly | Interp | exp/ln algebra |
| C47 | Interpolation stays between its neighbours | Interp | monotonicity of the logit/ln transform |
| C48 | Interpolation outside the grid | Interp | exp monotonicity |
| C49 | Interpolation respects degenerate occupation | Interp | expected FALSE (value 0 is returned) |
| C50 | Linearised functional equals the naive functional | Functional | ring over all side patterns, arbitrary length products |
| C51 | Detailed balance | Functional | exp algebra |
| C52 | Occupation stays in range: Pauli and positivity | Functional | sign analysis of products |
| C53 | Negative occupations are rejected | Functional | result type |
| C54 | Forward and backward reactions cancel | Functional | ring |
| C55 | D1 is the phase-space length | Ds | case analysis + lra; spec is an interval length |
| C56 | D2 is the angular integral | Ds | case analysis + RInt of a polynomial as the independent spec |
| C57 | D3 is the angular integral | Ds | same |
| C58 | The matrix-element kernel is non-negative | Ds | via the integral representation and Cauchy-Schwarz on the integrand |
| C59 | Zero-momentum kernel is the limit | Ds | limits (eventually equal to a polynomial in q1) |
| C60 | Zero-momentum mass term for massless particles | Ds | expected FALSE |
| C61 | Kinematic cut-off is the polygon inequality | Bounds | lra |
| C62 | Integration bounds lose no phase space | Bounds | real analysis of energy conservation and the polygon inequality |
| C63 | Two-body decay bounds are exact | Bounds | quadratic inequality |
| C64 | Collision integral is independent of the thread schedule | Bounds | per-thread state threading over an arbitrary schedule; expected FALSE for scattering, true for the rest |
| C65 | Collision kinds are honoured | Functional | result type; expected FALSE for the Python layer |
| C66 | Crossing conserves additive charges | Crossing | lists of particles, permutations; induction |
| C67 | Generated reactions are well formed | Crossing | same |
| C68 | Crossing is complete | Crossing | same |
| C69 | Kinematically impossible decays are skipped | Crossing | same |
| C70 | Matrix elements follow the particles | Crossing | permutation inverse, sign algebra |
| C71 | Deduplication leaves no duplicates | Dedup | induction over the list |
| C72 | Deduplication preserves the squared matrix element | Dedup | sum invariants |
| C73 | Merging constant matrix elements | Dedup | expected FALSE |
| C74 | Matrix element orders are validated | Dedup | case analysis |
| C75 | Regime classification | Particle | case analysis on real comparisons |
| C76 | Decoupling is irreversible and freezes aT | Particle | invariant over update histories |
| C77 | Distribution functions stay non-negative | Particle | extended reals with NaN |
| C78 | Each collision integral is counted once per step | Particle | multiset argument over steps |
| C79 | Decay flag is permanent | Particle | invariant |
| C80 | Free streaming conserves comoving number | Thermo | linear functional as the quadrature |
| C81 | Equation of state of radiation | Thermo | field, is_derive |
| C82 | Dust thermodynamics | Thermo | field, monotonicity |
| C83 | Equilibrium thermodynamic inequalities | Thermo | pointwise inequalities under non-negative weights |
| C84 | Temperature equation conserves energy | Thermo | is_derive of finite quadrature sums |
| C85 | Laguerre and Legendre forms agree | Thermo | algebra and is_derive |
| C86 | Weak rates obey detailed balance | Kawano | exp algebra |
| C87 | Weak rates are well defined | Kawano | sign analysis |
| C88 | Oscillation probabilities | Osc | trigonometric algebra |
| C89 | Oscillation mixing uses a snapshot | Osc | map over association lists |
| C90 | Grid cut-offs preserve the grid length | Kinem | list lengths |
| C91 | Non-Full kinds can be integrated | Kinem | expected FALSE |
| C92 | Fast-decay collision integrals can be computed | Kinem | expected FALSE |
| C93 | Two-body momentum | Kinem | sqrt algebra |
| C94 | Decoupling temperature selection | Kinem | expected FALSE for the dof selection |
| C95 | Neutron freeze-out monitor | Kawano | invariant over histories |
| C96 | Kind argument validation | Reactions | case analysis |
| C97 | Branching of fast decays | Kinem | linear functional |
| C98 | Initial time matches the expansion rate | Params | sqrt algebra |
| C99 | The history is exported even when KAWANO fails | Evolve | event trace of export(); FALSE of the code |
| C100 | Splitting a run is transparent | Evolve | two runs against one; FALSE of the code, exact law proved instead |
| C101 | Python and C++ table look-ups agree | Grids | both searches meet one specification, unique |
| C102 | Zero-momentum kernel of massless particles | Ds | limits of the kernel for massless particles |
| C103 | Integration limits are ordered numbers | Bounds | real analysis of the limits; every square root has a non-negative argument |
| C104 | Explicitly listed interactions | Cross | constructor modelled with the class attribute; FALSE of the code |
| C105 | Stored distribution of an equilibrium particle | Particle | update order as state transformer; FALSE of the code, exact lag proved |
| C107 | Energy conservation with linear steps | Thermo | FALSE of the code, exact defect proved |
| C108 | The oscillation map can be called as the bundled scripts call it | Osc | result type; FALSE for the default arguments |
| C109 | Oscillations conserve the flavour-summed change of the distributions | Osc | column sums; FALSE during partial decoupling, exact law proved |
| C110 | Momentum bounds of two-body decay products | Kinem | two-body kinematics |
| C111 | Momentum bound of three-body decay products | Kinem | three-body kinematics |
| C112 | Meson used for the grid resolution | Kinem | list search; FALSE at one mass |
| C113 | Multiplicity of identical products | Kinem | counting lemma |
| C114 | Neglected interactions | Kinem | exact characterisation |
| C115 | Grid parameters of the sterile neutrino | Kinem | case analysis |
| C116 | Interactions of leptons conserve charge and lepton numbers | Lib | library as data, closed computation over all generated reactions (every flavour and product combination) |
| C117 | Interactions of hadrons conserve charge | Lib | same; FALSE for named decays |
| C118 | Decay products are replenished by the decays | Lib | same; FALSE, exact list of missing products |
| C119 | Each decay of a chain is included once | Lib | induction over arbitrary particle lists; FALSE, exact count proved |
| C120 | Branching ratios are found | Lib | exact sums over Q; FALSE in part |
| C121 | Neutrino interactions are enumerated without repetition | Lib | NoDup |
| C122 | Constant squared amplitudes are not negative | Matrix | sign analysis over R; FALSE for vector mesons |
| C123 | Sterile meson interactions use the mixing angle of the flavour involved | Matrix | exact angle; FALSE for charged vector mesons |
| C124 | The annihilation amplitude is the same for active and sterile neutrinos | Matrix | polynomial identity; FALSE for the active interaction |
| C126 | Filtered sterile interactions and decay products | Lib | list membership |
| C127 | Squared amplitudes of the weak interactions are never negative | Matrix | four-momentum products of on-shell momenta are non-negative; sum of squares |
| C128 | The units of length, time, mass, force and density agree | Units | exact rational arithmetic; FALSE of the code |
| C129 | A particle can be created with the default attributes | Particle | constructor as attribute table and update; FALSE of the code |
| C130 | Collision integrands are evaluated at energy-conserving on-shell momenta | Bounds | algebra of square roots |
| C131 | No collision term in thermal equilibrium | Bounds | composition of C130 and C51 |
| C132 | Physics does not depend on the chosen energy unit | Units | histories of assignments and resets; FALSE for the constants |
| C133 | Vacuum decay rate and time dilation | Integrate3 | closed form of the integral of p/E between the limits, time dilation; is_RInt of Coquelicot stands for the quadrature |
| C134 | Decay rates for momenta that do not start at zero | Integrate3 | refuted: first entry always gets the rest-frame constant; the factor is computed |
| C135 | An event weighs the same for all its participants | Event | permutation and side-flip invariance of kinematics, D functions and functional |
| C136 | Events with a constant squared amplitude weigh the same for all participants | Event | refuted by massless scattering; the weight is K F p E |
| C137 | The collision integral does not depend on the unit of the integration variables | Integrate4 | scaling of every kinematic function, D function and iterated integral; FALSE for a constant amplitude in four-particle integrals, the factor is proved |
| C138 | Three-body decays at rest proceed at the textbook rate | Integrate4 | closed form of the two nested integrals against the Dalitz integral (both Coquelicot is_RInt); FALSE for a constant amplitude, the factor is proved |
| C139 | Matrix elements of the meson decays agree with the tabulated lifetimes | Width, Width2 | table of decays and amplitudes, rational bounds on momenta and on pi, composed with C133; for three bodies the area of the Dalitz region is bounded by sums over 601 cells with integer square roots, proved sound for every number of cells |
| C140 | Widths of sterile neutrinos into charged mesons | Sterile | algebra over R for all masses, composed with C133; FALSE for kaons (V_ud instead of V_us) |
| C141 | Widths of sterile neutrinos into neutral mesons | Sterile | algebra over R for all masses; FALSE for omega, phi and neutral kaons, the factors are proved |
| C142 | Sterile neutrino decays create as many products as sterile neutrinos are lost | Ledger | relabelling of the reaction generator (it sees identities only through equality and masses only through thresholds), then one computation per flavour; FALSE for Majorana sterile neutrinos and for electron pairs of neutral currents, the factors are proved |
| C143 | Energy is conserved in the decay of a sterile neutrino into three neutrinos | Energy | closed-form Dalitz integrals (Coquelicot is_RInt) of energy times amplitude for every order, composed with the relabelling of C142; FALSE, the factors are proved |
| C144 | Widths of sterile neutrinos equal the textbook ones | Channel | closed-form Dalitz integral of any sum of weak matrix elements, relabelling of C142, one computation per flavour; FALSE for Majorana particles and quarks, the factors are proved |
| C145 | A free neutron decays at the rate the normalisation is chosen for, and a medium only slows it down | Neutron | the integral is computed in closed form (rapidity substitution, Coquelicot), the logarithm and the square root in it are enclosed by rational bounds of the exponential; the bound in a medium is monotonicity of the integral |
| C146 | The particle tables have the quantum numbers of the particles | Table | each entry is checked by computation against an independent list of quark contents, spins and measured masses; the sterile neutrinos symbolically |
| C147 | A charged lepton decays into each lighter one at the measured rate | Lepton | the crossings are computed for the 256 selections and orders, the phase space integral is the exact one of C136, the weights those of the integrals |
| C148 | The constants agree with measurements and with each other | Const | linear arithmetic on exact rationals with enclosures of pi and of the square root of two |
| C149 | Every collision raises the entropy | Functional | derivative of the entropy along the flow is w (G-L) ln(G/L) |
| C150 | Neutrino collision integrals have the published amplitudes | Lib | merged amplitude as the sum over the crossed reactions (C72), enumerated for all flavours and compared with the table by ring |
| C151 | Every event of lepton and neutrino scattering changes all its participants alike | Reciprocity | Amplitudes of the merged integrals are turned into formal sums of products of scalar products (TermProofs.v, evaluation proved equal to the model's amplitude for all momenta); equality of the sums for every template, reaction and place is then decided by computation and lifted to all momenta and masses; the functional is shown to change sign under reading a reaction backwards; uniqueness by computing which templates meet. |
| C152 | Scattering of a sterile neutrino off an active one does not create or destroy energy | Reactions | the generated reactions are computed for one sterile neutrino and carried over to all by relabelling; amplitudes as formal sums of products compared by computation; a backward scattering event as the witness |
| C153 | The Gauss rule is exact to twice its order | Ortho | eigenvectors of the Jacobi matrix are the orthonormal polynomials at the nodes; exactness by division |
| C154 | The Radau and Lobatto rules contain the prescribed nodes and are exact to degrees 2n-2 and 2n-3 | Ortho | modified matrix has the prescribed eigenvalue; exactness from the unchanged leading coefficients |
| C155 | Computing a Radau or Lobatto rule leaves the coefficient arrays as they were | Ortho | calls return the arrays' final contents; FALSE of the code, what does hold is proved |
| C156 | The modified Chebyshev algorithm returns the recursion coefficients of the weight with the given moments | Ortho | loop invariant: row l holds the mixed moments of the l-th orthogonal polynomial |
| C157 | Gauss-Jacobi rules of the library integrate against the Jacobi weight exactly | Ortho | structure and lowering relations of Jacobi polynomials, integration by parts, Beta integral by induction |
| C158 | The polynomial evaluators and the coefficients of the logarithmic weight can be computed on the supported Python | Ortho | interpreter as a parameter; FALSE of the code on Python 3, values proved on Python 2 |
| C159 | jacobiD returns the derivatives of the polynomials that jacobi returns | Ortho | Jacobi derivative formula over the reals; FALSE of the code for NOPT=2, factor proved |
| C160 | The Jacobi coefficients exist for every order from one | Ortho | all branches of the constructors; FALSE of the code at N=1 |
| C161 | The KAWANO table reads back to the saved steps | Text | split of terminated lines; append and row_repr(-1) chained over the steps |
| C162 | Saved text tables read back to the recorded rows | Text | split of terminated lines; cell-by-cell error bound |
| C163 | Importing a KAWANO table | Text | FALSE of the code; outcome for every file, and the repaired reader |
| C164 | Charged currents of a sterile neutrino change all their participants alike | Current | computation for one sterile neutrino over all pairs of families, carried to any identity and mass by relabelling |
| C165 | Scattering of a sterile neutrino off a charged lepton reaches the equations of all participants | Neutral | the same computation on the filtered neutral-current integrals |
| C166 | A monitor shows at most thirteen curves | Plots | opacities are powers 0.8^a; ages simulate the opacities and reach a steady state after fourteen updates |
| C167 | Plotted points stay within the limits of the axes | Plots | invariant of one plot along the rows; the rings hold running extremes of all values |
| C168 | Monitors of particles | Plots | induction on the particles and on the points |
| C169 | The live view shows the data file | Plots | induction on the polls with the set of lengths read as ghost state |
| C170 | printoptions and benchmark are transparent | System | bodies are functions of a world that return or raise |
| C171 | Log files of universes | System | streams are nested Loggers; induction on the Universes made |
| C172 | Folders for the output | System | files are a map from paths; induction on the components of the path |
| C173 | Interpolated distributions are accurate to second order | Accuracy | Rolle's theorem twice on the difference from a quadratic; the Fermi function is Lipschitz with constant 1/4 |
| C174 | Running KAWANO | System | the program is an arbitrary function on files |
| C175 | The closed forms of radiation are the integrals over the distribution | Radiation | alternating partial sums of the geometric series bracket the Fermi function; duplication formula for bosons; integration by parts for the heat capacity |
| C176 | What the particle monitors show | Monitor | algebra over the closed forms; C175 for the decoupled species |
| C177 | The logarithmic weight: moments, coefficients and rule | OrthoLog | the moments of t^j by an antiderivative and a limit at 0; the closed form as minus the derivative in s of the moments of t^s, whose three-term recursion is verified by field; positivity from the fact that no monic polynomial vanishes on an interval; then C156 and C153 |
| C178 | Three-body decays into massive particles proceed at the textbook rate | Massive | step functions of the kernel resolved inside the triangle of momenta, which is shown to be the Dalitz interval of the second energy; substitution from momenta to energies in both integrals; change of unit; closed form by antiderivative for the muon |
| C179 | The error of a four-particle collision integral in one step | Tol | triangle inequality over the nested integrals; example with an explicit integral of massless scattering |
| C180 | The relative tolerance is not the accuracy of the result | Tol | the decay of C178 with the step 1/(100 rate) |
| C181 | The tolerance of three-particle collision integrals ignores degrees of freedom | Tol | contract of the quadrature scaled by the constants; a two-body decay as witness |
| C182 | The computed temperature history is of first order in the step | Temp | closed form of the Adams-Bashforth combinations with the recorded zero, mean value theorem for the truncation error, discrete Gronwall inequality |
| C183 | The recorded age of the universe | Age | step bounds on the integral of da/(aH) from monotonicity, Chasles, induction over the steps; closed form for radiation |
| C184 | The expansion rate passed to KAWANO | Row | scaling of the Friedmann equation, induction over the steps |
| C185 | Error estimate of the trapezoidal quadratures | Trap | the Hermite-Hadamard inequality on every panel; halving averages the trapezoids with the rectangles at the middle; induction over the depth and the refinements |
| C186 | Meaning of success of the repeated halving | Trap | the nodes of 1 - cos(532 pi x); induction over the refinements with fuel shown sufficient |
| C187 | The cache of the trapezoidal quadratures | Trap | induction over the nodes; the grid of a refinement contains the one before |
| C188 | Orders and brackets of the sampled rules | Trap | exactness on one panel and induction over the panels |
| C189 | The randomised units are consistent | NumUnits | every expression is reduced to a rational times powers of pi and of the base units by a verified normaliser, compared with the table by computation; induction over formulas |
| C190 | The physical constants of numericalunits agree with each other | NumUnits | the verified normaliser of C189 and bounds on the powers of pi |

## Modelled code

Each definition cites its lines. In short:

| file | modelled | where |
|---|---|---|
| environment.py | all | EnvModel |
| common/\_\_init\_\_.py | UNITS, CONST (UnitsModel); Params (ParamsModel); grids, theta, linear/cubic/exponential interpolation, binary search (GridsModel) | |
| plotting.py | age\_lines, the limits and data of Plotting.plot, Plotting.monitor, the history of ParticleMonitor, monitor\_datafile; the values shown by the particle monitors; not plot\_integrand or plot\_points; pandas and matplotlib only as the limits and numbering of axes | PlotModel, MonitorModel |
| common/utils.py | DynamicRecArray, Dynamic2DArray, ring\_deque, Throttler (ArraysModel); row\_repr and savetxt as text, with the number formats as parameters (TextModel); getenv, getboolenv (EnvModel); printoptions, benchmark, Logger, ensure\_dir, ensure\_path (SystemModel); reaction\_type, interaction\_filter, particle\_filter, particle\_orderer (ReactionsModel) | |
| common/integrators/ | implicit Euler, Euler, Heun, Adams-Bashforth, Adams-Moulton, fixed-order Gauss-Legendre/Laguerre and paired quadratures | IntegratorsModel |
| common/orthopoly.py | gauss, radau, lobatto, rec\_jacobi, rec\_jacobi01, jacobi, jacobiD, polyval, mm\_log, mod\_chebyshev, rec\_jaclog, over float arrays that the caller does not alias. LAPACK (eig\_banded, solve\_banded, solve), gamma and 2\*\*x are parameters with contracts stated in the theorems; the entries of mm\_log are an arbitrary function in OrthoModel and computed, with nan, in OrthoLogModel | OrthoModel, OrthoLogModel |
| common/kinematics.py | all: cut-offs, multipliers, neglected interactions, decay bounds, grid parameters, decoupling temperature, has\_decayed, scaling | KinemModel, ParticleModel |
| evolution.py | evolve loop, export/snapshots, step order, QCD transition, oscillation set-up and mixing, dT/dt row, temperature history, age | TempModel, AgeModel, RowModel, EvolveModel, ParamsModel, OscModel, KawanoModel |
| particles/ | regimes, update, decoupling, distribution update, collision integral bookkeeping, fast decays (ParticleModel); Dust/Radiation/Intermediate/NonEq thermodynamics, numerators and denominators (ThermoModel) | |
| interactions/\_\_init\_\_.py, boltzmann.py | crossing, charge conservation, deduplication, matrix element orders | CrossModel, ReactionsModel |
| interactions/three\_particle, four\_particle (Python) | M classes and merging (CrossModel); kinds (FunctionalModel); cut-offs and return shapes (KinemModel); masses, momenta and prefactors of the three-particle integral (Integrate3Model); compiled species, masses, momenta, limits and prefactors of the four-particle integral (Integrate4Model) | |
| interactions/\*/cpp/integral.cpp, Ds.cpp | interpolation (GridsModel), distribution functionals (FunctionalModel), D functions (DsModel), integrands, kinematic limits, OpenMP loops (BoundsModel); tolerances of the quadratures (TolModel) | |
| library/SM.py, NuMSM.py | particle table, mixing angles, every interaction generator and its matrix elements, lifetimes | LibModel, TableModel, MatrixModel, WidthModel |
| kawano.py, semianalytic.py | weak rates, table rows, freeze-out monitor (KawanoModel); heading, text table, import\_data (TextModel; pandas only as a list of rows); run (RunModel) | |
| four\_particle/cpp/trapezoidal.cpp, simpson.cpp (included by no other file) | trapezium and its cache, adaptive and repeated halving, the sampled rules (TrapModel); the cache with rounded abscissae (TrapFloatModel) | |
| numericalunits.py (vendored; only imported, as `use_numericalunits` is False) | reset_units, set_derived_units_and_constants (NumUnitsModel) | decimal literals exact, floats reals; module random is a parameter |

Not modelled: the drawing itself and the styles, titles and labels of plots; profiling and pickling helpers of
common/utils.py; the KAWANO program (an arbitrary function in C174, elsewhere only its success or
failure); GSL's and scipy's quadrature algorithms (arbitrary functions here; in C133, C134, C137, C138 and C178 the exact integral, in C179-C181 any number within the documented tolerance of it);
pybind11 glue; the scripts under tests/; interactions/three\_particle.py (shadowed by the
package of the same name).

## Findings

Properties that the faithful model refutes, wholly or in part (details and what
does hold: the named theorems and the notes in MANIFEST.json).

* **C04 Negative row indices count from the end.** the property is false of the code; the theorem shows arr[-1] is wrong for every history of distinct non-zero rows.
* **C05 Truncating an empty array is harmless.** the property is false of the code; truncating an empty table exposes stale rows and loses the next row (C05_truncate_empty_refuted), and a dropped row stays readable (C05_dropped_row_readable_refuted). On a non-empty table truncation is exact (C05_truncate_exact).
* **C06 Universe histories are independent.** the history table is a class attribute shared by all universes; the second theorem states what is seen instead.
* **C07 ring_deque is bounded and keeps the newest items.** REFUTED for the size bound (length+1 elements are kept); the exact contents law is proved.
* **C10 Boolean options can be switched off by the environment.** bool('False') is True, so an option whose default is True can only be disabled by the empty string.
* **C24 Export is crash-safe.** the snapshot file is opened with truncation before it is rewritten, so a crash in between leaves it empty although a complete snapshot existed. Every export has this window (second theorem). C23 proves that whatever is on disk is always a prefix of the history.
* **C29 First temperature step is Euler.** the recorded initial row has fraction 0, so the first step is the two-point formula on [0; f] and moves aT by 1.5*h*f. The companion theorem proves this value for every f and h.
* **C33 Adams-Moulton accepts every order it lists.** order=1 slices fs[-0:], i.e. the whole history, and raises AssertionError for every non-empty history. Orders 2..5 are proved accepted for every long enough history.
* **C38 No collisions, no change.** with all integrals zero the solver returns the distribution itself, which is then used as the collision term, so f grows by the factor 1+h; with no registered integral the distribution is unchanged (C38_no_integrals).
* **C42 Linear interpolation interpolates.** between grid points i and i+1 the code evaluates the line through points i+1 and i+2 (searchsorted already returns i+1), so it extrapolates; grid points themselves are exact.
* **C43 Linear interpolation is exact on affine data.** REFUTED in the last cell, where the code returns the constant last value; proved for every x up to the last-but-one grid point.
* **C44 Cubic interpolation interpolates.** REFUTED (continuity part): the interpolant jumps at interior grid points; exactness at nodes, on affine and on quadratic data are proved.
* **C49 Interpolation respects degenerate occupation.** the interpolated occupation between two f=1 points is 0, for every grid cell and mass.
* **C60 Zero-momentum mass term for massless particles.** for a massless first particle inside the mass term the limit is 0 but the zero-momentum kernel is K2*m_j*(...), non-zero in general; C60_massless_mass_term gives both values, C59_kernel_limit covers massive particles and C102 massless ones outside the mass term
* **C64 Collision integral is independent of the thread schedule.** REFUTED (endothermic scattering): max_1 is firstprivate and is enlarged to 3*min_1 in the thread's copy, so later iterations of the same thread integrate further than they would on another thread. Decays, creations and all three-particle reactions are proved independent, and scattering whenever 3*min_1 stays within the grid.
* **C65 Collision kinds are honoured.** REFUTED (Python layer): kind Full_vacuum_decay is integrated with the ordinary F_1/F_f functionals; the compiled layer honours every kind (C65_compiled_kinds)
* **C73 Merging constant matrix elements.** merging constant four-particle matrix elements loses the second constant, merging a constant with a momentum-dependent element loses one of them (C73_mixed_refuted) and a vanishing three-particle constant raises AttributeError; positive three-particle constants do add up (C73_three_particle_constants).
* **C79 Decay flag is permanent.** the documented condition holds as stated; REFUTED side claim: a stable massive particle is flagged as decayed once the scale factor is large enough (C79_stable_particle_refuted)
* **C91 Non-Full kinds can be integrated.** for every vector with at least two elements the truth test of an array raises ValueError, so every non-Full kind of the 4-particle integral fails; the 3-particle integral catches the exception and returns the vector.
* **C92 Fast-decay collision integrals can be computed.** reaction_type is given the reaction (a list) instead of the integral: AttributeError for every non-empty list of integrals. C92_number_balance states what the function would compute otherwise.
* **C94 Decoupling temperature selection.** In part: above the QCD scale 61.75 is overwritten by 10.75; the clipping of the temperature holds as stated.
* **C95 Neutron freeze-out monitor.** the code slices a numpy dtype (dtype[-6:]) and raises TypeError as soon as kawano data exist and the neutrons have not decoupled; so the decoupling and the estimates are never recorded. The claim is proved for the monitor with the columns read as intended.
* **C99 The history is exported even when KAWANO fails.** export() runs the KAWANO program before writing evolution.txt; a failure there propagates and the final history is never written.
* **C100 Splitting a run is transparent.** the second call records the current state again, so one row (and one multistep derivative) is duplicated; proved in general. With KAWANO, export() also closes the table that later cold steps write to: a further run raises ValueError at its first such step (C100_no_kawano_steps_after_an_export).
* **C104 Explicitly listed interactions.** the constructor ignores its argument and iterates the class attribute, so Interaction(...) always raises TypeError; a subclass' class attribute is deduplicated (C104_class_attribute).
* **C105 Stored distribution of an equilibrium particle.** update() rebuilds the array before it refreshes aT, so the array belongs to the previous aT (C105_stored_distribution_lags); at the decoupling update it is rebuilt with the right aT (C76_decoupling_update).
* **C107 Energy conservation with linear steps.** with linear steps the collision integral is already divided by x when it is computed, and NonEqParticle.numerator divides by x again; C107_linear_mode_defect gives the exact energy defect, C107_linear_mode_refuted a state where it is non-zero.
* **C108 The oscillation map can be called as the bundled scripts call it.** the defaults are MSW=None with matter_effects=True, so the call without arguments (as in several bundled scripts) raises TypeError. Characterised exactly: a pattern is returned iff matter effects are off or both parameters are given; through the universe only a missing particle fails.
* **C109 Oscillations conserve the flavour-summed change of the distributions.** mixing starts when any flavour is below its decoupling temperature, but flavours still in equilibrium ignore their integral, so their share is lost. Proved when all flavours have left equilibrium.
* **C112 Meson used for the grid resolution.** REFUTED at mass exactly equal to the neutral pion mass (index -1 wraps to the heaviest meson); holds for every larger mass.
* **C117 Interactions of hadrons conserve charge.** K->3pi, K_L->pi e nu, K_L->pi mu nu, omega->pi pi pi0 and beta decay violate charge; C117_exactly_four_violate shows that all other decays conserve it.
* **C118 Decay products are replenished by the decays.** C118_forgotten_products_refuted characterises the ten products without a creation integral; C118_conjugates_replenish is what holds when the conjugate is included.
* **C119 Each decay of a chain is included once.** [rho+-; pi+-] includes the pion decay twice; C119_copies gives the exact number, C119_once_if_ordered the condition.
* **C120 Branching ratios are found.** In part: kaon ratios sum to 0.94883 and tau has no table; the lookups themselves (C120_found) and the bound (C120_sums) hold.
* **C122 Constant squared amplitudes are not negative.** For vector mesons: C122_vectors_refuted shows the constant is negative whenever the meson is heavier than the sterile neutrino (plus lepton); C122_scalars, C122_pions, C122_neutral_pion and C122_vectors are what holds.
* **C123 Sterile meson interactions use the mixing angle of the flavour involved.** charged vector mesons use the angle of the last neutrino (C123_charged, C123_flavour_refuted); scalar and neutral mesons are right (C123_neutral, C123_quadratic); without neutrinos UnboundLocalError.
* **C124 The annihilation amplitude is the same for active and sterile neutrinos.** the active interaction has g_L and g_R exchanged (C124_active, C124_active_refuted); C124_sterile is right.
* **C128 The units of length, time, mass, force and density agree.** UNITS.m uses hc instead of hbar c, so the metre is too short by 2 pi and inconsistent with s, N, g_cm3 and G (C128_metre_refuted); up to that factor all relations hold (C128_consistent_up_to_2pi).
* **C129 A particle can be created with the default attributes.** _defaults has no Q, and update() reads self.Q for every species with thermal_dyn=False, so such a species raises AttributeError while being constructed. C129_otherwise_constructed: all other configurations succeed.
* **C132 Physics does not depend on the chosen energy unit.** For the constants: CONST is evaluated once at import and never follows a reset (C132_constants_follow_refuted, C132_constants_stale); the units do follow (C132_units_follow, C132_reset_is_exact) and recomputed constants would be right (C132_recomputed_constants).
* **C134 Decay rates for momenta that do not start at zero.** the first entry is multiplied by the rest-frame constant even when the first momentum is not zero (C134_any_momenta_refuted); it is then wrong by the factor (2 (aT/a) / m)^2 (C134_first_entry).
* **C136 Events with a constant squared amplitude weigh the same for all participants.** a constant squared amplitude enters the integrand without the phase-space factor D1 and without the division by p0 E0, so participants disagree on the weight of the event by the ratio of their p E (C136_constant_amplitude_refuted, C136_constant_amplitude_weight).
* **C137 The collision integral does not depend on the unit of the integration variables.** for four-particle matrix elements with a constant squared amplitude the result scales with the third power of the unit (C137_constant_amplitude, C137_unit_independent_refuted); it holds for all other matrix elements and for three-particle integrals
* **C138 Three-body decays at rest proceed at the textbook rate.** for constant squared amplitudes the rate is off by m (aT/a)^3 (C138_constant_amplitude, C138_constant_amplitude_refuted); it holds for amplitudes bilinear in four-momentum products
* **C140 Widths of sterile neutrinos into charged mesons.** decays into charged kaons use V_ud instead of V_us, a rate (974/225)^2 = 18.7 times as large (C140_kaon, C140_charged_refuted); it holds for pions, and for rho mesons with the mixing angle of C123
* **C141 Widths of sterile neutrinos into neutral mesons.** the rates into omega and phi are four and two times as large as their quark content gives, and neutral kaons are produced by a neutral current that conserves flavour (C141_omega_phi, C141_neutral_kaons, C141_neutral_refuted); it holds for pions and rho mesons
* **C142 Sterile neutrino decays create as many products as sterile neutrinos are lost.** for Majorana sterile neutrinos one N is lost for every two sets of products created (except muon and tau pairs of neutral currents); for Dirac ones electrons of the neutral-current channel are created twice as often. C142_dirac proves conservation in every other Dirac channel.
* **C143 Energy is conserved in the decay of a sterile neutrino into three neutrinos.** only 19/20 of the energy arrives for N -> a b anti-b with a and b of different flavour and 9/10 for equal flavours (twice as much for a Majorana N): the pair is filled from the spectrum of one of its members, which takes 3/10 of the mass where the other takes 7/20.
* **C144 Widths of sterile neutrinos equal the textbook ones.** a Majorana sterile neutrino decays at the Dirac rate, half of the textbook; channels with quarks lack the factor 3 of colours. C144_dirac_leptons proves the textbook widths for all leptonic channels of a Dirac sterile neutrino.
* **C146 The particle tables have the quantum numbers of the particles.** the proton of the table has charge -1 (C146_proton_refuted); everything else holds
* **C152 Scattering of a sterile neutrino off an active one does not create or destroy energy.** the equation of N and that of nu_a contain both terms of the amplitude (N with weight 1 if it is Majorana and 2 otherwise, nu_a with weight 2), that of nu_b only one of them on each side, so that e.g. backward scattering changes the total energy; C152_refuted shows this for every sterile neutrino, mixing and pair of flavours, C152_rates gives the rates the code uses, C152_found that the event and the four integrals exist. For the interactions of leptons and active neutrinos the same statement holds (C151_energy).
* **C155 Computing a Radau or Lobatto rule leaves the coefficient arrays as they were.** alphar = alpha is an alias, not a copy, so radau overwrites the last entry of the caller's alpha and lobatto the last entries of alpha and beta (C155_refuted). C155_last_only: nothing but the last entries changes, radau leaves beta alone, and a further radau on the overwritten array gives the right rule.
* **C158 The polynomial evaluators and the coefficients of the logarithmic weight can be computed on the supported Python.** they use xrange and reduce, which Python 3 does not have (C158_refuted). C158_python3 says exactly when: polyval always, rec_jaclog always, jacobi and mm_log from N=2, jacobiD from N=3. C158_values: where the built-ins exist, polyval gives the monic polynomials of its coefficients and jacobi positive multiples of those of rec_jacobi.
* **C159 jacobiD returns the derivatives of the polynomials that jacobi returns.** For nopt=2: jacobiD normalises the polynomials with raised parameters by their own norm, so the columns are off by a constant factor (C159_refuted, at N=1, a=b=0). C159_scale gives the factor for every column. C159_derivative: for NOPT=1 the claim holds for all N, a, b, x.
* **C160 The Jacobi coefficients exist for every order from one.** for N=1 rec_jacobi returns bare numbers, which rec_jacobi01 and gauss cannot index: IndexError (C160_refuted). C160_orders gives the outcome for every order: ValueError below one, N coefficients from two; rec_jacobi itself does not check N and returns arrays of different lengths below one.
* **C163 Importing a KAWANO table.** import_data uses the entries of the heading, which are lists, as dictionary keys, so it raises TypeError on every table with a data line (ValueError if the first field is not a number); C163_names_as_keys_would_read_the_table shows that the same reader keyed by the column names returns the saved rows.
* **C164 Charged currents of a sterile neutrino change all their participants alike.** For majorana sterile neutrinos (c164_majorana_refuted): the other three participants change by twice what the sterile neutrino changes by, so every event of non-zero rate changes the total energy. Proved for Dirac ones.
* **C165 Scattering of a sterile neutrino off a charged lepton reaches the equations of all participants.** For muons and taus (c165_refuted): the scattering is in the equation of the sterile neutrino with non-zero weight (C165_lost), but no integral of the neutrino or of the charged lepton is about it. For electrons all four equations have it (C165_electrons).
* **C166 A monitor shows at most thirteen curves.** the last sentence. A curve that follows a removed one is skipped: from the fourteenth update on every update leaves the oldest remaining curve undimmed. The rest holds for every number of updates.
* **C168 Monitors of particles.** For a list of one particle: subplots returns a one-dimensional array, the monitor gets one axes object and raises TypeError; the empty list raises ValueError. With two or more particles the claim holds.
* **C169 The live view shows the data file.** the rows plotted are those that were not the last row at any reading, each once (C169_rows); the last row is never shown, and a file read after every new row shows nothing. Restart and unchanged files behave as stated.
* **C170 printoptions and benchmark are transparent.** For bodies that raise: printoptions then leaves the options as they are inside (C170_exception_refuted). A benchmark name that raises hides the outcome of the body. Otherwise the claim holds.
* **C171 Log files of universes.** the last sentence. The logs of all earlier Universes receive the output of later ones, and assigning sys.stdout while a Logger that nothing else refers to is installed is undone by its finaliser. The first sentence is proved.
* **C172 Folders for the output.** the last sentence. A plain file at the path is accepted by ensure_dir, a bare file name makes ensure_path raise FileNotFoundError, and a second Universe with the same folder removes all earlier results. The rest is proved.
* **C173 Interpolated distributions are accurate to second order.** the last sentence. linear_interpolation continues the line of the next cell (C42); its error is at most M/2 times the product of the distances to the next two nodes (C173_linear), up to eight times the usual bound (C173_linear_refuted). The rest is proved.
* **C174 Running KAWANO.** the last sentence. The exit status is not looked at, so output of an earlier run is returned when the program fails without touching it (C174_stale_refuted); in the folder of a new Universe this cannot happen (C174_fresh). The rest is proved.
* **C175 The closed forms of radiation are the integrals over the distribution.** the last sentence. The closed form writes 1.2 for zeta(3) and is too small by between 0.15 and 0.19 per cent at every temperature (C175_density, C175_density_refuted). The rest is proved, for the exact integrals (not for the quadrature rule).
* **C177 The logarithmic weight: moments, coefficients and rule.** with a whole number that is not an int (a = 1.0, or a numpy integer) every entry after the first a + 1 is 0 * inf = nan (C177_refuted, C177_numbers). Everything else holds: C177_moments, C177_coefficients, C177_gauss. These need Python 2's reduce; on Python 3 the functions raise NameError from N = 1 of rec_jaclog on (C158).
* **C180 The relative tolerance is not the accuracy of the result.** C180_relative_refuted; C180_unresolved gives every case in which zero is an acceptable result, C179 the bound that does hold.
* **C181 The tolerance of three-particle collision integrals ignores degrees of freedom.** C181_one_percent_refuted; C181_three_particles is the bound that holds.
* **C182 The computed temperature history is of first order in the step.** C182_second_order_refuted; C182_converges is the first-order bound that holds, C182_linear_offset and C182_log_drift the exact errors for a constant slope. The sum of numerators over denominators is a function of x and aT in the model, as it is when all species are in equilibrium.
* **C183 The recorded age of the universe.** C183_accurate_refuted (dy = 0.05) and C183_recorded_density; C183_bracket, C183_radiation and C183_radiation_log are the bounds and the exact value that hold.
* **C184 The expansion rate passed to KAWANO.** C184_consistent_refuted; C184_bracket and C184_radiation are the bounds and the exact values that hold.
* **C186 Meaning of success of the repeated halving.** C186_success_refuted gives the integrand; C186_outcome says what is returned, C185 when it is accurate.

## Trusted base

* Coq 8.16.1's kernel, including its `vm_compute` conversion.
* The standard library's axioms listed per theorem below, as printed by
  `Print Assumptions`. No axiom is declared in this development and no other
  library's axiom is used. (A checker that walks all loaded files also sees the
  opaque signatures `RbaseSymbolsImpl.*`, `RinvImpl.*` of the standard library's
  reals and `ssrunder.Under_rel.*` of the ssreflect plugin's support files, which are
  module-type parameters implemented in the same file.)
* The faithfulness of the hand-written definitions in the `*Model.v` files to the
  cited lines. Floating-point numbers are real numbers: rounding, overflow and
  underflow are not modelled (TrapFloatModel has rounding); infinities and NaN are, where they decide control flow.
* The semantics given to Python, numpy and C++ operations, stated in the comments of
  the definitions; external routines (quadratures, the clock, callbacks, processes,
  pickling) are arbitrary functions.

### Axioms per theorem


**closed under the global context (no axiom)** (130 theorems): C01_dynamic2d_is_a_list, C01_dynamicrec_is_a_list, C02_linear_memory, C02_outside, C02_capacity_dynamic2d, C02_capacity_dynamicrec, C03_unknown_column, C03_columns, C03_missing_column, C04_negative_index_refuted, C05_truncate_exact, C05_dropped_row_readable_refuted, C05_truncate_empty_refuted, C06_unknown_universe, C06_independent_histories_refuted, C06_every_universe_sees_all_rows, C07_ring_bound_refuted, C07_ring_contents, C08_fresh, C08_ring_extremes, C09_output, C09_throttler_gap, C09_throttler_decision, C10_boolean_option_off_refuted, C10_only_empty_string_disables, C11_truth, C11_documented_defaults, C11_set_values, C11_typed_options, C11_untyped_options, C11_false_default_any_string_enables, C12_getboolenv_truth_table, C13_types_by_count, C13_side_swap, C13_order_irrelevant, C14_empty_reaction, C14_particle_filter, C14_particle_filter_compose, C14_interaction_filter, C14_interaction_filter_compose, C15_orderer_permutes, C15_orderer_sorted, C15_orderer_canonical, C28_qcd_needs_hadrons, C45_empty_grid, C66_charges_conserved, C66_imbalance_preserved, C66_majorana_charge_refuted, C67_well_formed, C67_each_particle_once, C67_no_repetition, C68_complete, C69_no_impossible_decay, C69_dropped_only_if_impossible, C74_default_order, C74_order_validated, C74_pairs_unordered, C87_uninitialised, C96_accepted_value, C96_kind_validation, C97_no_reaction, C97_matching, C108_default_call_refuted, C116_neutrino_charge, C116_neutrino_flavour, C116_neutrino_reactions, C116_sterile_charge, C116_quark_charge, C116_hadron_charge, C116_sterile_lepton_number, C117_lepton_scattering, C117_exactly_four_violate, C117_kaon_refuted, C117_baryon_refuted, C118_who_leads, C118_conjugates_replenish, C118_forgotten_products_refuted, C119_copies, C119_whole_chain, C119_once_if_ordered, C119_once_refuted, C120_found, C120_sums, C120_exhaustive_refuted, C120_tau_refuted, C121_scatterings_once, C121_charged_currents, C124_places, C126_scattering_disjoint, C126_decay_products, C146_identified, C146_states, C146_consistent, C146_charges, C146_proton_refuted, C146_masses, C146_distinct, C146_plasma, C146_short_lived, C158_no_alpha, C168_monitors, C168_one_refuted, C168_history, C169_rows, C169_last_refuted, C169_slow_refuted, C169_restart, C169_unchanged, C170_restored, C170_exception_refuted, C170_benchmark, C170_name_refuted, C171_tee, C171_isolated_refuted, C171_flags, C171_redirect_refuted, C171_redirect, C172_ensure_dir, C172_blocked, C172_file_refuted, C172_bare_refuted, C172_universe, C172_kept_refuted, C172_universe_blocked, C174_result, C174_failures, C174_stale_refuted, C174_fresh, C174_command, C174_menu.

**`ClassicalDedekindReals.sig_forall_dec`** (8 theorems): C65_one_sided, C65_split_kinds, C65_full_kind_honoured, C74_foreign_order, C74_short_order, C88_no_matter, C91_zero_shape, C91_fast.

**`ClassicalDedekindReals.sig_forall_dec`, `FunctionalExtensionality.functional_extensionality_dep`** (232 theorems): C20_initial_state, C20_exceptions, C20_constructor_succeeds_iff, C20_missing_temperature_is_TypeError, C21_evolve_postcondition, C22_broken_temperature_exits, C22_interrupt_exits, C23_running_snapshot, C23_final_export_is_whole_history, C23_every_moment_is_a_prefix, C24_export_crash_safe_refuted, C24_every_export_has_an_empty_window, C25_kawano_rows_are_the_cold_steps, C25_comparison_is_the_float_order, C25_s4_file_holds_the_same_rows, C25_kawano_without_folder_raises, C26_temperature_derivative, C28_entropic_dof, C29_first_step_is_euler_refuted, C29_first_step_is_three_halves_euler, C30_adams_bashforth_not_exact_at_order, C31_adams_bashforth_argument_checking, C31_only_last_derivatives_matter, C32_adams_moulton_implicit_equation, C32_adams_moulton_automatic_order, C33_adams_moulton_accepts_every_order_refuted, C33_order_one_always_fails_with_history, C33_orders_two_to_five_accepted, C34_implicit_euler_solves_and_unique, C34_implicit_euler_nonnegative_and_damped, C35_euler_exact_for_constants, C35_heun_exact_for_affine, C35_heun_second_order_for_linear_ode, C36_quadrature_linear, C36_quadrature_empty_interval, C36_quadrature_antisymmetric, C36_quadrature_affine_substitution, C36_quadrature_nonnegative, C37_double_is_iterated, C37_paired_is_componentwise, C38_no_collisions_refuted, C39_linear_grid, C39_defaults_used_when_missing, C40_log_grid, C42_linear_between_neighbours_refuted, C42_linear_at_nodes, C42_linear_extrapolates_next_cell, C43_affine_exact_up_to_last_cell, C43_affine_exact_refuted, C43_last_cell_constant, C44_cubic_at_nodes, C44_cubic_affine, C44_cubic_quadratic, C44_cubic_continuous_refuted, C45_cpp_search, C45_python_search_agrees, C50_products, C50_full_is_gain_minus_loss, C50_linearisation, C50_naive_split, C52_empty_state_is_not_depleted, C52_full_fermion_state_is_not_filled, C52_relaxation_is_damping, C53_negative_occupations_rejected, C53_own_occupation_checked_only_by_creation, C53_vacuum_kinds_never_fail, C54_forward_and_backward_cancel, C54_same_side_participants_agree, C55_interval_meaning, C55_phase_space_length, C55_symmetric, C55_nonnegative, C55_positive_iff_polygon, C56_symmetric_in_pairs, C56_documented_form, C56_vanishes_outside, C57_symmetric, C59_D1_limit, C59_D2_limit, C60_massless_mass_term, C61_four_particle_cutoff, C61_three_particle_cutoff, C61_order_independent, C61_three_particle_order_independent, C65_same_rate, C65_compiled_kinds, C65_vacuum_kind_honoured_refuted, C70_crossing_symmetry, C71_no_duplicates, C71_any_matrix_elements, C72_combined, C72_amplitude_preserved, C72_cross_generating, C73_mixed_refuted, C73_three_particle_constants, C73_four_particle_constant_refuted, C73_zero_constant_refuted, C75_classification, C75_out_of_equilibrium, C75_monotone, C78_eligibility, C79_condition, C79_remaining_fraction, C79_stable_particle_refuted, C79_flagged, C88_matter_parameters, C89_snapshot, C89_only_below_decoupling, C90_four_particle_partition, C90_four_particle_covers, C90_three_particle_partition, C90_three_particle_covers, C90_three_particle_skip, C91_one_point, C91_refuted, C91_three_particle, C92_refuted, C92_number_balance, C94_scales, C94_refuted, C94_degrees, C95_freeze, C95_below, C97_density, C97_number, C97_zero, C97_untouched, C97_unmatched, C99_history_exported_when_kawano_fails_refuted, C99_kawano_failure_skips_the_export, C100_split_run_equals_single_run_refuted, C100_split_run_repeats_a_row, C100_no_kawano_steps_after_an_export, C102_massless_kernel_limit, C104_explicit_interaction_refuted, C104_class_attribute, C112_heaviest_lighter, C112_refuted, C113_short, C113_four, C113_three, C113_no_charge, C114_scattering, C114_three_exact, C114_never_fails, C114_four_creation, C114_four_decay, C114_scattering_kept, C114_three, C122_scalars, C122_pions, C122_vectors, C122_vectors_refuted, C123_charged, C123_neutral, C123_quadratic, C123_flavour_refuted, C123_no_neutrinos, C123_unknown_vector, C124_sterile, C124_active, C124_active_refuted, C127_standard, C127_sterile, C127_quarks, C127_baryons, C127_covers, C132_units_follow, C132_reset_is_exact, C132_constants_stale, C139_names, C139_no_name, C142_dirac, C142_electrons_refuted, C142_majorana_refuted, C142_refuted, C144_library, C147_balance, C148_ckm, C148_hierarchy, C148_decay_constants, C149_blocking_needed, C150_table, C150_complete, C150_once, C151_reciprocity, C151_weight, C151_rates, C151_energy, C151_once, C152_found, C152_rates, C152_refuted, C156_coefficients, C156_errors, C158_short, C160_exponents, C161_kawano_table_reads_back, C161_other_numbers_of_rates, C162_savetxt_reads_back, C163_import_data_raises, C163_import_data_reads_the_table_refuted, C163_names_as_keys_would_read_the_table, C164_same, C164_reciprocity, C164_weight, C164_rates, C164_energy, C164_majorana_refuted, C164_events, C165_lost, C165_refuted, C165_electrons, C166_view, C166_bounded, C166_opacity, C166_fade_refuted, C167_limits, C167_zero, C167_negative_refuted, C173_linear_refuted, C176_flag, C176_equilibration, C176_abundance, C177_numbers, C177_refuted, C182_defined, C182_linear_offset, C186_outcome, C187_calls, C187_transparent, C188_relations.

**`ClassicalDedekindReals.sig_forall_dec`, `ClassicalDedekindReals.sig_not_dec`, `FunctionalExtensionality.functional_extensionality_dep`** (159 theorems): C16_comoving_temperature, C16_records, C16_bookkeeping_invariants, C17_scale_factor_and_time_increase, C17_closed_form_log, C17_closed_form_linear, C18_friedmann, C18_scaling, C19_neff_counts_neutrinos, C19_neff_affine, C19_neff_increasing, C27_no_particles, C27_pure_radiation, C28_entropy_of_radiation, C38_no_integrals, C41_heuristic_grid_terminates, C41_successive_points, C51_detailed_balance, C60_massless_mass_term_refuted, C62_decay_covers, C62_scattering_covers, C62_creation_covers, C63_decay_limits_exact, C63_creation_limits_exact, C63_at_rest, C64_decay_schedule_independent, C64_creation_schedule_independent, C64_three_particle_schedule_independent, C64_scattering_schedule_independent, C64_exothermic_scattering, C64_scattering_schedule_refuted, C76_fresh, C76_irreversible, C76_decoupling_update, C77_special_values, C77_fast_decay_values, C77_fast_decay_history, C77_equilibrium_untouched, C77_infinite_rejected, C77_new_value, C78_counted_once, C79_permanent, C79_flag_never_cleared, C80_free_streaming, C80_massless_pressure, C81_number_density, C81_equation_of_state, C81_statistics, C82_dust, C83_entropy, C86_detailed_balance, C86_detailed_balance_totals, C87_comoving, C87_value, C87_rates_well_defined, C87_empty_window, C87_below_threshold, C87_above_threshold, C88_averaged_probabilities, C88_survival, C90_reaction_types, C93_energy, C93_symmetric, C93_massless, C93_forbidden, C95_estimate, C95_monitor_refuted, C95_never_estimates_refuted, C95_intended_total, C95_recorded_once, C98_initial_time_is_half_hubble_time, C98_initial_time_satisfies_radiation_age, C103_decay_limits_ordered, C103_scattering_limits_ordered, C105_equilibrium_value, C105_zero_temperature, C105_stored_distribution_lags, C110_forbidden, C110_bounds, C110_no_allowed_point_dropped, C111_kept, C111_creation, C111_short, C111_bound, C111_no_allowed_point_dropped, C111_forbidden, C112_neutrino_resolution, C122_neutral_pion, C128_metre_refuted, C128_consistent_up_to_2pi, C129_default_attributes_refuted, C129_otherwise_constructed, C130_momenta4, C130_momenta3, C130_threshold, C130_value4, C130_value3, C131_equilibrium4, C131_equilibrium3, C132_constants_follow_refuted, C132_recomputed_constants, C133_constants_length, C135_three_particles, C135_four_particles, C136_constant_amplitude_refuted, C136_constant_amplitude_weight, C139_three_body_table, C139_table, C140_charged_scalar, C140_charged_vector, C140_charged_content, C140_kaon, C140_charged_refuted, C141_neutral_scalar, C141_neutral_vector, C141_pion_rho, C141_omega_phi, C141_neutral_kaons, C141_neutral_refuted, C148_units, C148_constants, C148_gravity, C148_isospin, C148_one_table, C153_shapes, C153_exact, C153_nodes, C154_short, C155_refuted, C155_last_only, C158_python3, C158_values, C159_scale, C160_one_point, C160_orders, C176_comoving_values, C176_massive, C176_curve, C176_comoving, C179_massive_kind, C179_lookup, C179_massless_kind, C179_coefficient, C179_full, C179_massless_empty, C183_steps, C183_bracket, C183_radiation, C183_radiation_log, C183_recorded_density, C183_accurate_refuted, C184_bracket, C184_radiation, C184_consistent_refuted, C184_columns, C189_table, C189_formulas, C189_detects, C190_lightyear.

**`ClassicalDedekindReals.sig_forall_dec`, `Classical_Prop.classic`, `FunctionalExtensionality.functional_extensionality_dep`** (1 theorems): C89_order.

**`ClassicalDedekindReals.sig_forall_dec`, `ClassicalDedekindReals.sig_not_dec`, `Classical_Prop.classic`, `FunctionalExtensionality.functional_extensionality_dep`** (135 theorems): C28_empty_bath, C28_qcd_conserves_entropy, C28_qcd_needs_two_rows, C30_adams_bashforth_exact, C30_adams_bashforth_exact_auto, C32_adams_moulton_exact, C36_quadrature_exact_on_polynomials, C46_equilibrium_reproduced, C47_between_neighbours, C47_at_nodes, C48_above_grid, C48_above_grid_shape, C48_above_grid_continuous, C48_below_grid, C48_equilibrium_ignores_table, C49_one_full_node_refuted, C49_degenerate_fermion_refuted, C51_sign_of_collision_term, C56_angular_integral, C57_angular_integral, C58_kernel_nonnegative, C59_kernel_limit, C76_frozen_values, C77_nonnegative_forever, C81_denominator_is_heat_capacity, C82_density_decreases_to_zero, C83_inequalities, C84_first_law, C85_branches_agree, C85_substitution, C85_integrals, C88_vacuum_limit, C88_shape_mismatch, C88_pattern, C88_matter, C88_mixing_conserves, C89_unknown_flavour, C94_relativistic, C94_temperature, C94_at_least_mass, C94_zero_angle, C95_monitor_intended, C101_python_and_cpp_lookup_agree, C105_stored_values, C105_current_temperature_refuted, C107_linear_mode_defect, C107_linear_mode_refuted, C108_when_callable, C108_universe_call, C109_summed_change, C109_partial_decoupling_refuted, C112_meson_resolution, C112_resolutions, C115_HNL_grid, C128_measured, C133_decay_rate, C133_whole_grid, C134_first_entry, C134_any_momenta_refuted, C137_unit_independent, C137_constant_amplitude, C137_unit_independent_3, C137_unit_independent_refuted, C137_linear, C137_coupling, C138_three_body_rate, C138_muon_rate, C138_constant_amplitude, C138_constant_amplitude_refuted, C139_three_body, C139_widths, C139_rates, C139_muon, C140_arrays, C143_energy_refuted, C143_refuted, C144_dirac_leptons, C144_majorana_refuted, C144_quarks_refuted, C145_free_neutron, C145_blocking, C147_widths, C147_lifetimes, C148_electroweak, C148_matter, C149_entropy, C154_radau, C154_lobatto, C157_gauss, C157_gauss01, C158_orthonormal, C158_refuted, C159_derivative, C159_refuted, C160_refuted, C173_second_order, C173_fermions, C173_linear, C175_energy, C175_massless, C175_density, C175_density_refuted, C175_statistics, C175_switch, C176_detailed_balance, C176_equilibrium, C176_ratio, C176_decoupled, C177_moments, C177_coefficients, C177_gauss, C178_massive_rate, C178_rate_exists, C178_constant_amplitude, C178_muon_rate, C180_unresolved, C180_relative_refuted, C181_three_particles, C181_unresolved, C181_one_percent_refuted, C182_converges, C182_log_drift, C182_second_order_refuted, C185_halving, C185_adaptive, C186_success_refuted, C187_rounded_nodes, C187_rounded_calls, C188_exact, C188_not_quartic, C188_brackets, C189_draws, C189_reset, C189_range, C190_relations.
