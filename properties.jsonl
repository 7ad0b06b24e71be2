{"id": "C01", "title": "Append-only arrays behave like lists", "statement": "For Dynamic2DArray and DynamicRecArray, after any sequence of append/extend/truncate calls that never truncates an empty array, the rows visible through .data and the value of len() are exactly those of an ordinary list on which append pushes at the end and truncate drops the last element.", "quantifier": "every sequence of append/extend/truncate operations, every row value, every column count", "why_tests_cant": "storage is reallocated at data-dependent lengths by a routine that repeats old contents; a finite test only visits a few growth/truncation interleavings", "anchors": ["common/utils.py:Dynamic2DArray.append", "common/utils.py:Dynamic2DArray.truncate", "common/utils.py:DynamicRecArray.append"]}
{"id": "C02", "title": "Append never runs out of storage", "statement": "In the same histories no append or truncate ever indexes outside the allocated storage (so no IndexError is raised), because at least two spare rows always remain.", "quantifier": "every history of append/extend/truncate that never truncates an empty array", "why_tests_cant": "the spare-capacity invariant must survive arbitrarily long interleavings of growth and deletion", "anchors": ["common/utils.py:Dynamic2DArray.append", "common/utils.py:DynamicRecArray.truncate"]}
{"id": "C03", "title": "Columns of recorded dictionaries", "statement": "After appending any list of dictionaries that contain all declared columns, reading column c of a DynamicRecArray gives, in order, the values recorded under key c, whatever the key order of each dictionary; a dictionary missing a declared column is rejected with KeyError and leaves the array unchanged.", "quantifier": "every column declaration without duplicates, every list of dictionaries, every key order", "why_tests_cant": "depends on all key orders and all history lengths", "anchors": ["common/utils.py:DynamicRecArray.append", "common/utils.py:DynamicRecArray.__getitem__"]}
{"id": "C04", "title": "Negative row indices count from the end", "statement": "DynamicRecArray[-k] should return the k-th row from the end of the recorded rows, as data[-k] does.", "quantifier": "every recorded history and every k between 1 and the number of rows", "why_tests_cant": "a test on one length can accidentally hit storage that happens to repeat the right row", "anchors": ["common/utils.py:DynamicRecArray.__getitem__"]}
{"id": "C05", "title": "Truncating an empty array is harmless", "statement": "truncate() on an array with no rows should leave an array with no visible rows.", "quantifier": "every array state with length zero", "why_tests_cant": "needs reasoning about unreachable-looking states and negative slices", "anchors": ["common/utils.py:Dynamic2DArray.truncate", "common/utils.py:DynamicRecArray.truncate"]}
{"id": "C06", "title": "Universe histories are independent", "statement": "The history returned by one Universe contains only rows recorded by that Universe, whatever other Universe objects were created or evolved before or in between.", "quantifier": "every interleaving of constructions and recordings over any number of Universe objects", "why_tests_cant": "sharing only shows up across object lifetimes and interleavings", "anchors": ["evolution.py:Universe.data", "evolution.py:Universe.save_params"]}
{"id": "C07", "title": "ring_deque is bounded and keeps the newest items", "statement": "After any sequence of appends a ring_deque holds at most `length` elements, and they are the most recently appended ones in order.", "quantifier": "every declared length, every initial data, every append sequence", "why_tests_cant": "the bound is about arbitrarily long histories; the off-by-one is visible only after more than length appends", "anchors": ["common/utils.py:ring_deque"]}
{"id": "C08", "title": "ring_deque running extremes", "statement": "ring_deque.max/min equal the maximum/minimum of all values appended so far (including evicted ones), regardless of initial contents.", "quantifier": "every non-empty append sequence", "why_tests_cant": "ranges over all value orders and lengths", "anchors": ["common/utils.py:ring_deque.append_more", "common/utils.py:ring_deque.append"]}
{"id": "C09", "title": "Throttler rate limit", "statement": "Between two accepted updates of a Throttler (and between construction and the first accepted update) at least `rate` seconds of clock time pass, and an update arriving at least `rate` after the last accepted one is always accepted; a backwards-running clock can only cause rejections.", "quantifier": "every clock sequence, monotone or not, and every rate", "why_tests_cant": "depends on the schedule of calls relative to a real clock", "anchors": ["common/utils.py:Throttler.update"]}
{"id": "C10", "title": "Boolean options can be switched off by the environment", "statement": "Setting an environment variable such as LOGARITHMIC_TIMESTEP to a textual false value ('False', 'false', '0', 'no') makes environment.get return a falsy value.", "quantifier": "every boolean option with default True and every non-empty string value", "why_tests_cant": "quantifies over all strings; the coercion accepts every non-empty string", "anchors": ["environment.py:get", "environment.py:defaults"]}
{"id": "C11", "title": "Typed and untyped options", "statement": "environment.get returns a value of the type of its truthy default; options whose default is falsy or absent return the raw string (or the default), so a False-default option set to any non-empty string, including '0' and 'False', is truthy.", "quantifier": "every option table, every option name, every environment", "why_tests_cant": "quantifies over option tables and string values", "anchors": ["environment.py:get"]}
{"id": "C12", "title": "getboolenv truth table", "statement": "getboolenv is falsy exactly when the variable (or the default used for an unset variable) is None, False, 'false', 'f', '0' or '-1'; in particular an unset variable yields the truthiness of the default for boolean defaults.", "quantifier": "every string value and every default", "why_tests_cant": "quantifies over all strings", "anchors": ["common/utils.py:getboolenv"]}
{"id": "C13", "title": "Reaction classification is a partition", "statement": "Every 3- or 4-particle reaction with at least one particle on each side is classified as exactly one of CREATION, SCATTERING, DECAY; swapping the two sides exchanges CREATION with DECAY and fixes SCATTERING; the classification does not depend on the particle order.", "quantifier": "every assignment of sides to 3 or 4 particles with both sides non-empty, every order", "why_tests_cant": "must hold for all side assignments and permutations", "anchors": ["common/utils.py:reaction_type"]}
{"id": "C14", "title": "Species and interaction filters", "statement": "particle_filter removes exactly the particles whose name is listed and keeps the order of the others; interaction_filter removes exactly the integrals whose first (or any, if first_only is false) participant is listed or whose side-sum is listed; both are idempotent and filtering by two name lists in sequence equals filtering by their union.", "quantifier": "every particle list, every interaction list, every name list and side-sum list", "why_tests_cant": "ranges over all lists and name sets", "anchors": ["common/utils.py:particle_filter", "common/utils.py:interaction_filter"]}
{"id": "C15", "title": "Particle ordering", "statement": "particle_orderer returns a permutation of the input ordered by non-increasing mass, ties by non-increasing name; the result depends only on the multiset of particles when names are unique.", "quantifier": "every list of particles", "why_tests_cant": "ranges over all orders and multiplicities of the input", "anchors": ["common/utils.py:particle_orderer", "particles/__init__.py:AbstractParticle.__gt__"]}
{"id": "C16", "title": "Scale-factor bookkeeping invariants", "statement": "In every state reached from a constructed Params by any sequence of make_step-like updates (set aT, advance x by dx, update), the relations x = a*m and a*T = aT hold, and m never changes.", "quantifier": "every initial temperature, step size, mode, sequence of temperature corrections and energy densities", "why_tests_cant": "unbounded step histories", "anchors": ["common/__init__.py:Params.update", "common/__init__.py:Params.infer", "evolution.py:Universe.make_step"]}
{"id": "C17", "title": "Scale factor and time are strictly increasing", "statement": "Along any evolution with positive steps and positive energy densities the recorded scale factor and the recorded time strictly increase, each time increment is (1 - a_old/a_new)/H, and in logarithmic mode a after n steps is a_0*(1+dy)^n while in linear mode x grows by n*dx.", "quantifier": "every number of steps, every step size, every positive energy density history", "why_tests_cant": "unbounded step counts and arbitrary density histories", "anchors": ["common/__init__.py:Params.update", "evolution.py:Universe.make_step"]}
{"id": "C18", "title": "Friedmann equation", "statement": "After each update H^2 = 8*pi/3 * G * rho with G = 1/M_p^2 and H >= 0; scaling rho by k^2 scales H by |k| and the time increment by 1/|k|.", "quantifier": "every energy density rho >= 0 and every state", "why_tests_cant": "continuum of densities", "anchors": ["common/__init__.py:Params.update", "common/__init__.py:CONST"]}
{"id": "C19", "title": "N_eff counts standard neutrinos", "statement": "For a universe containing photons at T and N standard left-handed neutrinos at T/1.401, N_eff reported by Params.update equals N; N_eff is affine and strictly increasing in rho.", "quantifier": "every temperature T > 0 and every real N >= 0, every rho", "why_tests_cant": "continuum of temperatures and densities", "anchors": ["common/__init__.py:Params.update", "particles/RadiationParticle.py:energy_density"]}
{"id": "C20", "title": "Params construction errors", "statement": "Params(...) succeeds exactly when T is given, non-zero and the step used by the current mode (dy if logarithmic, dx if linear) is given and non-zero; a missing T always raises TypeError (so Universe() without params can never be constructed), and a missing or zero step always raises.", "quantifier": "every combination of keyword arguments and both timestep modes", "why_tests_cant": "ranges over all argument combinations", "anchors": ["common/__init__.py:Params.__init__", "evolution.py:Universe.__init__"]}
{"id": "C21", "title": "evolve() postcondition", "statement": "If evolve(T_final) returns normally, the final temperature satisfies 0 < T <= T_final, the number of newly recorded rows is one plus the number of steps made, every recorded row except the last has T > T_final, and the step counter has grown by the number of steps.", "quantifier": "every step function (any physics), every T_final, including NaN and infinite temperatures", "why_tests_cant": "the loop length is unbounded and depends on the physics", "anchors": ["evolution.py:Universe.evolve"]}
{"id": "C22", "title": "evolve() never returns on a broken temperature", "statement": "If the temperature becomes NaN or non-positive, evolve exits the process with status 1 instead of returning data or exporting.", "quantifier": "every step function producing NaN, zero, negative or infinite temperatures at any step", "why_tests_cant": "arbitrary step at which the failure appears", "anchors": ["evolution.py:Universe.evolve"]}
{"id": "C23", "title": "Exported snapshots are prefixes of the history", "statement": "At every moment of an uninterrupted run the file evolution.txt holds exactly the rows recorded up to the last multiple-of-100 step counter (or everything after the final export); it is therefore always a prefix of the final history.", "quantifier": "every run length, every step function", "why_tests_cant": "unbounded runs", "anchors": ["evolution.py:Universe.evolve", "evolution.py:Universe.export"]}
{"id": "C24", "title": "Export is crash-safe", "statement": "A crash at any point of a run leaves the last complete snapshot of evolution.txt readable.", "quantifier": "every crash point, including between opening the file for writing and writing it", "why_tests_cant": "crash points inside a write are not reachable from unit tests", "anchors": ["evolution.py:Universe.evolve", "evolution.py:Universe.export"]}
{"id": "C25", "title": "KAWANO table covers exactly the cold steps", "statement": "With KAWANO output enabled, a KAWANO row is recorded for exactly those steps whose post-step temperature is at most 10 MeV, in step order, computed from the state of that step; s4.dat holds the same rows.", "quantifier": "every step function and run length", "why_tests_cant": "unbounded runs and arbitrary temperature histories", "anchors": ["evolution.py:Universe.save", "kawano.py:T_kawano"]}
{"id": "C26", "title": "Temperature derivative passed to KAWANO", "statement": "The dT/dt recorded for KAWANO equals the time derivative of T = aT/a along the trajectory with da/dt = H a and d(aT)/d(step variable) = fraction, in both logarithmic and linear mode.", "quantifier": "every differentiable trajectory, every state, both modes", "why_tests_cant": "derivative identity over a continuum", "anchors": ["evolution.py:Universe.save"]}
{"id": "C27", "title": "Pure radiation universe", "statement": "In a universe whose particles are all massless and in equilibrium, any number of steps leaves aT unchanged, and the total energy density computed for successive states scales exactly as a^-4 and the entropy density as a^-3.", "quantifier": "every set of massless equilibrium species, every number of steps, every history used by the multistep scheme", "why_tests_cant": "unbounded steps and arbitrary particle content", "anchors": ["evolution.py:Universe.make_step", "particles/RadiationParticle.py:numerator", "common/integrators/__init__.py:adams_bashforth_correction"]}
{"id": "C28", "title": "QCD transition conserves entropy", "statement": "QCD_transition sets aT so that (effective equilibrium degrees of freedom after) * aT_new^3 = (degrees of freedom before) * aT_old^3 where aT_old is the last value kept in the history, drops exactly the last history row, removes exactly the quark/gluon species and adds the hadrons.", "quantifier": "every particle content with positive degrees of freedom before and after, every history with at least two rows", "why_tests_cant": "arbitrary particle content and history", "anchors": ["evolution.py:Universe.QCD_transition", "common/__init__.py:Params.entropic_dof_eq"]}
{"id": "C29", "title": "First temperature step is Euler", "statement": "With no previous derivative available the first temperature step equals h * fraction (a consistent first-order start of the multistep scheme).", "quantifier": "every step size and every first fraction", "why_tests_cant": "the interaction of history bookkeeping and integrator only shows as a factor in the result", "anchors": ["evolution.py:Universe.evolve", "evolution.py:Universe.make_step", "common/integrators/__init__.py:adams_bashforth_correction"]}
{"id": "C30", "title": "Adams-Bashforth order conditions", "statement": "adams_bashforth_correction of order k (1..5, or chosen automatically from the history length) returns the exact increment of the solution whenever the derivative is a polynomial of degree < k sampled at equally spaced times, and is not exact in degree k.", "quantifier": "every polynomial of degree below the order, every step size, every base point, every history length", "why_tests_cant": "continuum of polynomials and steps", "anchors": ["common/integrators/__init__.py:adams_bashforth_correction", "common/integrators/__init__.py:ADAMS_BASHFORTH_COEFFICIENTS"]}
{"id": "C31", "title": "Adams-Bashforth argument checking", "statement": "adams_bashforth_correction raises KeyError exactly when the effective order is not in 1..5 (in particular for an empty history), raises AssertionError exactly when an explicit valid order exceeds the history length, and otherwise returns a value depending only on the last `order` derivatives.", "quantifier": "every history and every requested order", "why_tests_cant": "all history lengths and orders", "anchors": ["common/integrators/__init__.py:adams_bashforth_correction"]}
{"id": "C32", "title": "Adams-Moulton solves the implicit step", "statement": "For dy/dt = A + B*y the value returned by adams_moulton_solver satisfies the implicit multistep equation y_new = y + h*(sum of weighted old derivatives + b_k*(A + B*y_new))/divider whenever the divisor 1 - h*B*b_k/d is non-zero, and is exact when the derivative is a polynomial of degree < k.", "quantifier": "every history, step, A, B with non-zero divisor, every polynomial derivative", "why_tests_cant": "continuum of inputs", "anchors": ["common/integrators/__init__.py:adams_moulton_solver", "common/integrators/__init__.py:ADAMS_MOULTON_COEFFICIENTS"]}
{"id": "C33", "title": "Adams-Moulton accepts every order it lists", "statement": "For every order 1..5 and every history with at least order-1 entries, adams_moulton_solver(order=...) returns a value.", "quantifier": "every order and every history long enough", "why_tests_cant": "slice conventions with a zero offset depend on history length", "anchors": ["common/integrators/__init__.py:adams_moulton_solver"]}
{"id": "C34", "title": "Implicit Euler", "statement": "implicit_euler returns the unique solution of y_new = y + h*(A + B*y_new) when h*B != 1; for h > 0, A >= 0, B <= 0 and y >= 0 the result is non-negative and, for A = 0, never exceeds y.", "quantifier": "every y, A, B, h in the stated ranges", "why_tests_cant": "continuum of inputs (stability is a for-all statement)", "anchors": ["common/integrators/__init__.py:implicit_euler"]}
{"id": "C35", "title": "Euler and Heun corrections", "statement": "euler_correction is exact for constant derivatives; heun_correction is exact whenever the derivative is an affine function of time only, and reproduces the second-order Taylor value y*(1+hL+(hL)^2/2) for dy/dt = L*y.", "quantifier": "every y, t, h and derivative of the stated form", "why_tests_cant": "continuum of inputs", "anchors": ["common/integrators/__init__.py:euler_correction", "common/integrators/__init__.py:heun_correction"]}
{"id": "C36", "title": "Fixed-order quadrature laws", "statement": "gaussian(f,a,b) is linear in f, zero for a = b, antisymmetric under exchanging the bounds when the nodes and weights are symmetric, transported correctly under affine substitutions, exact on polynomials whenever the reference rule on [-1,1] is exact for their degree, and non-negative for f >= 0, a <= b and non-negative weights.", "quantifier": "every rule (nodes, weights), every integrand and interval", "why_tests_cant": "continuum of integrands and intervals", "anchors": ["common/integrators/__init__.py:gaussian", "common/integrators/__init__.py:integrate_1D"]}
{"id": "C37", "title": "Double quadrature equals iterated quadrature", "statement": "double_gaussian(f,a,b,g,h) equals gaussian over x of the inner gaussian over y between g(x) and h(x), also for the paired version component-wise, including when bounds coincide.", "quantifier": "every rule, integrand and bound functions", "why_tests_cant": "continuum of integrands and bound functions", "anchors": ["common/integrators/__init__.py:double_gaussian", "common/integrators/__init__.py:remap_interval", "common/integrators/paired.py:double_gaussian"]}
{"id": "C38", "title": "No collisions, no change", "statement": "If all collision integrals of a non-equilibrium particle vanish, a step leaves its distribution function unchanged.", "quantifier": "every distribution, step size and history of collision integrals", "why_tests_cant": "the defect is a missing subtraction hidden behind a solver call; needs a for-all statement over histories", "anchors": ["particles/__init__.py:DistributionParticle.calculate_collision_integral", "particles/__init__.py:DistributionParticle.update_distribution"]}
{"id": "C39", "title": "Linear momentum grid", "statement": "LinearSpacedGrid with n >= 2 samples and MAX_MOMENTUM > 0 is strictly increasing, starts at 0, ends exactly at MAX_MOMENTUM and has equal spacing MAX/(n-1).", "quantifier": "every n >= 2 and every positive maximum", "why_tests_cant": "all sizes", "anchors": ["common/__init__.py:LinearSpacedGrid"]}
{"id": "C40", "title": "Logarithmic momentum grid", "statement": "LogSpacedGrid with n >= 2 samples starts at 0, ends exactly at MAX_MOMENTUM, is strictly increasing and its successive spacings grow by the factor 1.2.", "quantifier": "every n >= 2 and every positive maximum", "why_tests_cant": "all sizes", "anchors": ["common/__init__.py:LogSpacedGrid.generate_template"]}
{"id": "C41", "title": "Heuristic grid construction terminates", "statement": "HeuristicGrid construction terminates for all positive M, tau, aT, b, c and yields a strictly increasing grid from 0 to MAX_MOMENTUM.", "quantifier": "all positive parameters", "why_tests_cant": "termination over a continuum of parameters (a while loop driven by floating values)", "anchors": ["common/__init__.py:HeuristicGrid"]}
{"id": "C42", "title": "Linear interpolation interpolates", "statement": "linear_interpolation returns the tabulated values at grid points and, between two neighbouring grid points, a value between the two tabulated values.", "quantifier": "every strictly increasing grid, every table and every point inside the grid range", "why_tests_cant": "off-by-one cell selection is invisible on affine data and at nodes", "anchors": ["common/__init__.py:linear_interpolation"]}
{"id": "C43", "title": "Linear interpolation is exact on affine data", "statement": "linear_interpolation of the samples of an affine function reproduces the function everywhere in the grid range.", "quantifier": "every grid, affine function and point in range", "why_tests_cant": "continuum; fails only in the last cell", "anchors": ["common/__init__.py:linear_interpolation"]}
{"id": "C44", "title": "Cubic interpolation interpolates", "statement": "cubic_interpolation returns tabulated values at grid points, is exact for affine data on uniform grids (quadratic data away from the ends), and stays continuous across interior grid points.", "quantifier": "every grid, table and point", "why_tests_cant": "continuum of points; continuity is a limit statement", "anchors": ["common/__init__.py:cubic_interpolation"]}
{"id": "C45", "title": "Grid search is correct", "statement": "binary_find(grid, x) on a strictly increasing grid terminates and returns (i,i) iff grid[i] = x, (i,i+1) iff grid[i] < x < grid[i+1], (n-1,-1) iff x is above the grid and (-1,0) iff x is below it.", "quantifier": "every strictly increasing non-empty grid of any size and every x", "why_tests_cant": "all sizes and positions; binary search errors are classic corner cases", "anchors": ["interactions/four_particle/cpp/integral.cpp:binary_find", "interactions/three_particle/cpp/integral.cpp:binary_find", "common/__init__.py:binary_find"]}
{"id": "C46", "title": "Interpolation reproduces equilibrium exactly", "statement": "If the tabulated distribution is an equilibrium (Fermi or Bose) function of the energy at any temperature, distribution_interpolation returns that same equilibrium function at every momentum inside the grid, so equilibrium is not disturbed by interpolation.", "quantifier": "every grid, mass, statistics, temperature and momentum in range", "why_tests_cant": "continuum of momenta and temperatures", "anchors": ["interactions/four_particle/cpp/integral.cpp:distribution_interpolation", "common/__init__.py:interp"]}
{"id": "C47", "title": "Interpolation stays between its neighbours", "statement": "For tabulated values strictly between 0 and the maximal occupation, distribution_interpolation at an off-grid momentum returns a value between the two neighbouring tabulated values; at grid points it returns the tabulated value.", "quantifier": "every grid, table, mass, statistics and in-range momentum", "why_tests_cant": "continuum", "anchors": ["interactions/four_particle/cpp/integral.cpp:distribution_interpolation"]}
{"id": "C48", "title": "Interpolation outside the grid", "statement": "Above the grid the distribution continues as f_max * exp(-(E(p)-E_max)/T): non-negative, non-increasing in p and continuous at the last grid point; below the grid an exception is raised; with in_equilibrium set the table is ignored.", "quantifier": "every grid, table, mass, temperature and momentum", "why_tests_cant": "continuum", "anchors": ["interactions/four_particle/cpp/integral.cpp:distribution_interpolation"]}
{"id": "C49", "title": "Interpolation respects degenerate occupation", "statement": "For a fully degenerate fermion table (f = 1 at two neighbouring grid points) the interpolated occupation between them is 1.", "quantifier": "every grid cell and mass", "why_tests_cant": "the failure needs the exact boundary value 1 in the table", "anchors": ["interactions/four_particle/cpp/integral.cpp:distribution_interpolation"]}
{"id": "C50", "title": "Linearised functional equals the naive functional", "statement": "F_1 + f_0*F_f = F_B + F_A for every reaction whose first particle is on the left, for 3 and 4 particles, so the kinds Full and (F_1, F_f) describe the same collision term; each part is independent of f_0.", "quantifier": "every occupation numbers, statistics and side assignment", "why_tests_cant": "continuum of occupations, all side assignments", "anchors": ["interactions/four_particle/cpp/integral.cpp:F_f", "interactions/four_particle/cpp/integral.cpp:F_1", "interactions/three_particle/cpp/integral.cpp:F_f"]}
{"id": "C51", "title": "Detailed balance", "statement": "If all participants have equilibrium distributions at a common temperature and energy is conserved in the reaction, the collision functional vanishes identically, for any statistics and any of the generated side assignments.", "quantifier": "every temperature, energies satisfying conservation, statistics, side assignment; 3 and 4 particles", "why_tests_cant": "continuum; the cancellation must be exact", "anchors": ["interactions/four_particle/cpp/integral.cpp:F_A", "interactions/four_particle/cpp/integral.cpp:F_B"]}
{"id": "C52", "title": "Occupation stays in range: Pauli and positivity", "statement": "With all other occupations admissible (>= 0, and <= 1 for fermions), the collision functional is >= 0 at f_0 = 0 and, for a fermion, <= 0 at f_0 = 1; so collisions never push an empty state negative or a full fermion state above one.", "quantifier": "every admissible occupations, statistics, side assignment", "why_tests_cant": "continuum", "anchors": ["interactions/four_particle/cpp/integral.cpp:F_A", "interactions/four_particle/cpp/integral.cpp:F_B"]}
{"id": "C53", "title": "Negative occupations are rejected", "statement": "Evaluating a functional that reads a negative occupation raises an exception; F_1 and F_f do not look at f_0, and vacuum-decay kinds look at no sign.", "quantifier": "every occupation vector with a negative entry, every kind", "why_tests_cant": "all positions of the negative entry and all kinds", "anchors": ["interactions/four_particle/cpp/integral.cpp:F_A", "interactions/four_particle/cpp/integral.cpp:integrand_full"]}
{"id": "C54", "title": "Forward and backward reactions cancel", "statement": "Exchanging the two sides of a reaction flips the sign of the collision functional (so a reaction and its inverse exchange particles symmetrically).", "quantifier": "every occupations, statistics, side assignment", "why_tests_cant": "continuum", "anchors": ["interactions/four_particle/cpp/integral.cpp:F_A", "interactions/four_particle/cpp/integral.cpp:F_B"]}
{"id": "C55", "title": "D1 is the phase-space length", "statement": "D1(q1,q2,q3,q4) equals half the length of the interval of |p1+p2| allowed by both pairs (0 if empty): it is symmetric under all permutations, non-negative, and zero exactly when the four momenta cannot close into a polygon of positive measure.", "quantifier": "all non-negative momenta", "why_tests_cant": "continuum with eight sign regions", "anchors": ["interactions/four_particle/cpp/Ds.cpp:D1"]}
{"id": "C56", "title": "D2 is the angular integral", "statement": "D2(q1,q2,q3,q4) equals 1/2 times the integral over the allowed |p1+p2| = k of (q3^2+q4^2-k^2)/2, is symmetric within each pair, agrees with the documented piecewise form and vanishes outside the allowed region.", "quantifier": "all non-negative momenta", "why_tests_cant": "continuum with many sign regions (closed form with absolute values and signs)", "anchors": ["interactions/four_particle/cpp/Ds.cpp:D2"]}
{"id": "C57", "title": "D3 is the angular integral", "statement": "D3(q1,q2,q3,q4) equals 1/2 times the integral over allowed k of (q1^2+q2^2-k^2)(q3^2+q4^2-k^2)/4 and is symmetric under all 24 permutations.", "quantifier": "all non-negative momenta", "why_tests_cant": "continuum, five piecewise regions", "anchors": ["interactions/four_particle/cpp/Ds.cpp:D3"]}
{"id": "C58", "title": "The matrix-element kernel is non-negative", "statement": "For energies not below momenta and sides forming a physical reaction, the K1 part of D with K1 >= 0 is non-negative for every order of the momenta.", "quantifier": "all momenta, energies E_i >= p_i >= 0, orders and sides", "why_tests_cant": "continuum", "anchors": ["interactions/four_particle/cpp/Ds.cpp:D"]}
{"id": "C59", "title": "Zero-momentum kernel is the limit", "statement": "Db1 and Db2 are the limits of D1/q1 and D2/q1 as q1 -> 0+, so the kernel used at p0 = 0 is the continuous extension of the kernel used at p0 > 0.", "quantifier": "all non-negative momenta of the other particles", "why_tests_cant": "limit statement over a continuum", "anchors": ["interactions/four_particle/cpp/Ds.cpp:Db1", "interactions/four_particle/cpp/Ds.cpp:Db2"]}
{"id": "C60", "title": "Zero-momentum mass term for massless particles", "statement": "Db with a K2 term is the p0 -> 0+ limit of D/(p0*E0) also when particle 0 is massless and takes part in the mass term.", "quantifier": "all momenta and masses", "why_tests_cant": "limit over a continuum", "anchors": ["interactions/four_particle/cpp/Ds.cpp:Db"]}
{"id": "C61", "title": "Kinematic cut-off is the polygon inequality", "statement": "in_bounds (4 particles) holds exactly when the last energy is at least the mass and each momentum is at most the sum of the other three; the 3-particle version is 2 exactly for a strict triangle, 1 exactly for a degenerate triangle of positive momenta, and 0 otherwise; both are independent of the order of the momenta.", "quantifier": "all non-negative momenta", "why_tests_cant": "continuum and all orders", "anchors": ["interactions/four_particle/cpp/integral.cpp:in_bounds", "interactions/three_particle/cpp/integral.cpp:in_bounds"]}
{"id": "C62", "title": "Integration bounds lose no phase space", "statement": "For 4-particle decay, scattering and creation reactions the integrand vanishes for every (p1,p2) outside the integration limits computed by integration(), including at p0 = 0; for scattering up to the grid cut-off of p1, for creation (of a massive particle) up to the grid cut-off of the created particle's momentum.", "quantifier": "all masses, momenta, occupation tables, matrix elements", "why_tests_cant": "continuum of masses and momenta", "anchors": ["interactions/four_particle/cpp/integral.cpp:integration", "interactions/four_particle/cpp/integral.cpp:integrand_2nd_integration"]}
{"id": "C63", "title": "Two-body decay bounds are exact", "statement": "For a 3-particle decay or creation at p0 > 0 the momentum p1 satisfies energy conservation and the triangle inequality (and, for creation, keeps the third momentum on its grid) exactly when it lies between the limits used by integration_3; at p0 = 0 the momentum used is the unique back-to-back one.", "quantifier": "all masses above threshold, all momenta p0, p1 >= 0", "why_tests_cant": "continuum of masses and momenta", "anchors": ["interactions/three_particle/cpp/integral.cpp:p1_bounds_3", "interactions/three_particle/cpp/integral.cpp:integration_3"]}
{"id": "C64", "title": "Collision integral is independent of the thread schedule", "statement": "integration() returns the same vector whatever the number of OpenMP threads and assignment of loop iterations to threads.", "quantifier": "every partition of the momentum grid into per-thread iteration sequences, every reaction type", "why_tests_cant": "schedules cannot be enumerated by tests; single-threaded tests see one schedule", "anchors": ["interactions/four_particle/cpp/integral.cpp:integration", "interactions/three_particle/cpp/integral.cpp:integration_3"]}
{"id": "C65", "title": "Collision kinds are honoured", "statement": "Each CollisionIntegralKind yields its own functional: Full = F_1 + f_0 F_f, Full_vacuum_decay = F_1_vacuum_decay + f_0 F_f_vacuum_decay; a four- or three-particle integral constructed with kind Full_vacuum_decay uses the vacuum functional.", "quantifier": "every kind, reaction and occupations", "why_tests_cant": "kinds are combined at two language layers; the vacuum kind silently falls back", "anchors": ["interactions/four_particle/__init__.py:FourParticleIntegral.integrate", "interactions/three_particle/__init__.py:ThreeParticleIntegral.integrate"]}
{"id": "C66", "title": "Crossing conserves additive charges", "statement": "Every reaction generated by CrossGeneratingInteraction from a base reaction conserves every additive quantum number (charge, lepton number, ...) conserved by the base reaction, provided Majorana species carry zero of it.", "quantifier": "every base reaction with any number of particles, every additive charge", "why_tests_cant": "all permutations, arrow positions and charge assignments", "anchors": ["interactions/__init__.py:CrossGeneratingInteraction.reactions_map", "interactions/__init__.py:CrossGeneratingInteraction.cross_particle"]}
{"id": "C67", "title": "Generated reactions are well formed", "statement": "Every generated reaction uses each base particle exactly once, lists its left side before its right side with both sides non-empty, has a non-antiparticle first, is sorted after the first position, and no reaction is generated twice.", "quantifier": "every base reaction", "why_tests_cant": "factorially many permutations", "anchors": ["interactions/__init__.py:CrossGeneratingInteraction.reactions_map"]}
{"id": "C68", "title": "Crossing is complete", "statement": "Every split of the base particles (crossed as required) into non-empty left and right sides with a chosen first left particle that is not an antiparticle and is kinematically allowed appears among the generated reactions.", "quantifier": "every base reaction, every split, every choice of first particle", "why_tests_cant": "factorially many cases", "anchors": ["interactions/__init__.py:CrossGeneratingInteraction.reactions_map"]}
{"id": "C69", "title": "Kinematically impossible decays are skipped", "statement": "No generated reaction has a single particle on one side whose mass is at most the total mass of the other side, and no allowed reaction is dropped for that reason.", "quantifier": "every base reaction and all masses", "why_tests_cant": "continuum of masses", "anchors": ["interactions/__init__.py:CrossGeneratingInteraction.reactions_map"]}
{"id": "C70", "title": "Crossing symmetry of the matrix elements", "statement": "After crossing, the order of each matrix element is again a permutation with sorted pairs, and the squared amplitude of the generated reaction equals the one of the base interaction with the four-momenta of the crossed particles reversed, times -1 for each crossed particle (so K2 changes sign exactly when one but not both particles of its mass pair were crossed).", "quantifier": "every base reaction of four particles, every generated reaction, every matrix element, all momenta and masses", "why_tests_cant": "all permutations and crossing patterns", "anchors": ["interactions/__init__.py:CrossGeneratingInteraction.init_integrals", "interactions/four_particle/__init__.py:FourParticleM.apply_order"]}
{"id": "C71", "title": "Deduplication leaves no duplicates", "statement": "After deduplication no two integrals have the same particle and the same multisets of species on both sides, every input integral is represented and first occurrences keep their order.", "quantifier": "every list of integrals", "why_tests_cant": "all list lengths and orders", "anchors": ["interactions/__init__.py:IntegralDeduplicator"]}
{"id": "C72", "title": "Deduplication preserves the squared matrix element", "statement": "The total |M|^2 (as a function of the momentum products) summed over a class of equivalent integrals is preserved by merging them, for K1/K2 matrix elements.", "quantifier": "every list of integrals, all momentum products", "why_tests_cant": "all lists and continuum of momenta", "anchors": ["interactions/__init__.py:IntegralDeduplicator.append", "interactions/four_particle/__init__.py:FourParticleM.stackable"]}
{"id": "C73", "title": "Merging constant matrix elements", "statement": "Merging two integrals with constant matrix elements K and K' yields total constant K + K'.", "quantifier": "all constants, 3- and 4-particle matrix elements", "why_tests_cant": "the loss is silent: no exception, wrong rate", "anchors": ["interactions/four_particle/__init__.py:FourParticleM.__iadd__", "interactions/three_particle/__init__.py:ThreeParticleM.__iadd__", "interactions/__init__.py:IntegralDeduplicator.append"]}
{"id": "C74", "title": "Matrix element orders are validated", "statement": "Constructing a four-particle matrix element with a repeated index raises; otherwise the stored order has sorted pairs, and swapping indices inside a pair gives an equal matrix element.", "quantifier": "every order tuple", "why_tests_cant": "all tuples", "anchors": ["interactions/four_particle/__init__.py:FourParticleM.__init__", "interactions/four_particle/__init__.py:FourParticleM.__setattr__"]}
{"id": "C75", "title": "Regime classification", "statement": "Every particle is in exactly one regime; for an equilibrium particle and switching factor >= 1 the regime is RADIATION iff T > gamma*M, DUST iff gamma*T < M, otherwise INTERMEDIATE, and as T decreases the regime only moves in the order RADIATION, INTERMEDIATE, DUST (then NONEQ).", "quantifier": "all masses, temperatures and factors >= 1", "why_tests_cant": "continuum and monotone histories", "anchors": ["particles/__init__.py:AbstractParticle.regime", "particles/__init__.py:AbstractParticle.in_equilibrium"]}
{"id": "C76", "title": "Decoupling is irreversible and freezes aT", "statement": "Once a particle has left equilibrium, it stays out of equilibrium in every later update as long as the scale factor does not decrease, its aT stays frozen, and t_decoupling is set exactly once, at the decoupling update.", "quantifier": "every later history of aT, a and t with a non-decreasing", "why_tests_cant": "unbounded histories", "anchors": ["particles/__init__.py:DistributionParticle.update"]}
{"id": "C77", "title": "Distribution functions stay non-negative", "statement": "After any update_distribution the distribution is element-wise >= 0 and NaN-free; NaN collision terms are treated as zero, infinite ones raise AssertionError and leave the distribution unchanged; equilibrium particles are not touched.", "quantifier": "every distribution, collision integral (including NaN/inf) and step", "why_tests_cant": "all IEEE special-value patterns", "anchors": ["particles/__init__.py:DistributionParticle.update_distribution"]}
{"id": "C78", "title": "Each collision integral is counted once per step", "statement": "During each step the integrals collected by a non-equilibrium particle are exactly the integrals of all interactions whose first particle it is (each once), provided it is strictly below its decoupling temperature, and the list is empty again after update_distributions.", "quantifier": "every set of interactions, every number of steps", "why_tests_cant": "accumulation errors only appear over many steps", "anchors": ["evolution.py:Universe.integrand", "interactions/four_particle/__init__.py:FourParticleIntegral.initialize"]}
{"id": "C79", "title": "Decay flag is permanent", "statement": "Once has_decayed has flagged a particle, its collision integral is zero and the flag stays set in every later step.", "quantifier": "every later history", "why_tests_cant": "unbounded histories", "anchors": ["common/kinematics.py:has_decayed", "particles/__init__.py:DistributionParticle.calculate_collision_integral"]}
{"id": "C80", "title": "Free streaming conserves comoving number", "statement": "For a decoupled particle with no collision integrals the comoving number density n*a^3 computed by the code is constant over any number of steps, and for a massless one also rho*a^4; the pressure of a massless one is rho/3.", "quantifier": "every grid, every distribution, every linear quadrature, any number of steps", "why_tests_cant": "unbounded histories", "anchors": ["particles/NonEqParticle.py:density", "particles/NonEqParticle.py:energy_density", "particles/NonEqParticle.py:pressure"]}
{"id": "C81", "title": "Equation of state of radiation", "statement": "For radiation P = rho/3, s*T = rho + P, fermions carry 7/8 (number 3/4) of the boson value, rho scales as T^4, and the master-equation denominator is the derivative of rho*a^4 with respect to aT.", "quantifier": "all temperatures and degrees of freedom", "why_tests_cant": "continuum; derivative identity", "anchors": ["particles/RadiationParticle.py:energy_density", "particles/RadiationParticle.py:denominator"]}
{"id": "C82", "title": "Dust thermodynamics", "statement": "In the dust regime P = n*T, rho = n*(M + 3T/2), s*T = rho + P when the particle temperature equals the plasma temperature, n > 0, rho >= 3P exactly when M >= 3T/2, and the density increases strictly with T and tends to 0 as T tends to 0.", "quantifier": "all masses, temperatures and degrees of freedom > 0", "why_tests_cant": "continuum", "anchors": ["particles/DustParticle.py:density", "particles/DustParticle.py:entropy"]}
{"id": "C83", "title": "Equilibrium thermodynamic inequalities", "statement": "For equilibrium species computed by quadrature, 0 <= 3P <= rho and rho >= M*n, with 3P = rho for zero mass; for any quadrature with non-negative weights.", "quantifier": "all masses, temperatures, statistics, rules", "why_tests_cant": "continuum", "anchors": ["particles/IntermediateParticle.py:pressure", "particles/IntermediateParticle.py:energy_density"]}
{"id": "C84", "title": "Temperature equation conserves energy", "statement": "With d(aT)/dx = numerator/denominator the total comoving energy of equilibrium species obeys d(rho a^3) = -P d(a^3) exactly, for any particle content in radiation and intermediate regimes when energy, pressure, numerator and denominator are computed with one common quadrature; collision terms of non-equilibrium species move exactly the energy the plasma loses.", "quantifier": "all particle contents, states and quadrature rules", "why_tests_cant": "a differential identity over a continuum", "anchors": ["particles/IntermediateParticle.py:numerator", "particles/IntermediateParticle.py:denominator", "particles/NonEqParticle.py:numerator", "evolution.py:Universe.integrand"]}
{"id": "C85", "title": "Laguerre and Legendre forms agree", "statement": "The integrand used by the Gauss-Laguerre branch of the master-equation integrals is the image of the Gauss-Legendre integrand under the substitution y^2 = aT^2 eps (eps + 2M/T), including the Jacobian and the e^-eps weight, for both statistics.", "quantifier": "all eps > 0, masses, temperatures, both statistics, powers 2 and 4", "why_tests_cant": "continuum", "anchors": ["particles/IntermediateParticle.py:Int"]}
{"id": "C86", "title": "Weak rates obey detailed balance", "statement": "With electron and neutrino equilibrium distributions at a common temperature T, the integrands of the n->p rates and the inverse p->n rates have ratio exactly exp(q/T) at every momentum, for all three channel pairs.", "quantifier": "all momenta, temperatures, scale factors", "why_tests_cant": "continuum", "anchors": ["kawano.py:_rate1", "kawano.py:_rate2", "kawano.py:_rate3", "kawano.py:_rate4", "kawano.py:_rate5", "kawano.py:_rate6"]}
{"id": "C87", "title": "Weak rates are well defined", "statement": "baryonic_rates returns six values, non-negative for admissible distributions and non-negative quadrature weights, and exactly zero for a channel whose momentum window is empty.", "quantifier": "all grids, scale factors, admissible distributions", "why_tests_cant": "continuum", "anchors": ["kawano.py:baryonic_rates"]}
{"id": "C88", "title": "Oscillation probabilities", "statement": "The oscillation pattern is symmetric, has entries in [0,1] and rows summing to 1 for all matter parameters, so that averaging over oscillations conserves the flavour-summed collision integral.", "quantifier": "all MSW parameters, both matter settings", "why_tests_cant": "continuum", "anchors": ["library/SM.py:particles.leptons.oscillations_map", "evolution.py:Universe.update_distributions"]}
{"id": "C89", "title": "Oscillation mixing uses a snapshot", "statement": "The mixed collision integral of each flavour is the pattern-weighted sum of the unmixed integrals of all flavours, independent of the order in which flavours are processed, and mixing happens only when some flavour is below its decoupling temperature.", "quantifier": "every list of distinct flavours, every order", "why_tests_cant": "order-dependence bugs need all orders", "anchors": ["evolution.py:Universe.update_distributions"]}
{"id": "C90", "title": "Grid cut-offs preserve the grid length", "statement": "For every reaction type the computed slice together with its zero padding has exactly the grid length, the computed part is a prefix (4-particle) or a contiguous block (3-particle), for any cut-off value.", "quantifier": "every grid, every cut-off", "why_tests_cant": "off-by-one for special cut-offs", "anchors": ["common/kinematics.py:four_particle_grid_cutoff_creation", "common/kinematics.py:three_particle_grid_bounds_creation"]}
{"id": "C91", "title": "Non-Full kinds can be integrated", "statement": "FourParticleIntegral.integrate returns a vector for the kinds F_1, F_f, F_decay, F_creation and their vacuum versions on grids with more than one point.", "quantifier": "every non-Full kind, every grid longer than one point", "why_tests_cant": "truth value of an array raises only for length > 1 and only on this branch", "anchors": ["interactions/four_particle/__init__.py:FourParticleIntegral.integrate", "common/kinematics.py:scaling"]}
{"id": "C92", "title": "Fast-decay collision integrals can be computed", "statement": "Icoll_fast_decay returns a vector for every fast-decaying particle with at least one collision integral.", "quantifier": "every non-empty list of integrals", "why_tests_cant": "the error is an attribute access on a wrong object, on every path", "anchors": ["common/kinematics.py:Icoll_fast_decay", "common/utils.py:reaction_type"]}
{"id": "C93", "title": "Two-body momentum", "statement": "cm_momentum(m1,m2,m3) satisfies energy conservation m1 = sqrt(p^2+m2^2) + sqrt(p^2+m3^2) for m1 >= m2+m3, is symmetric in the products and equals (m1^2-m3^2)/(2 m1) for a massless product.", "quantifier": "all masses with m1 > 0 and m1 >= m2 + m3", "why_tests_cant": "continuum", "anchors": ["common/kinematics.py:cm_momentum"]}
{"id": "C94", "title": "Decoupling temperature selection", "statement": "decoupling_temperature returns max-type clipped values: at least the mass, equal to 1.5*T_rel when T_rel exceeds the mass, and the relativistic formula uses the degrees of freedom of the mass range (61.75 above the QCD scale, 14.25 between muon mass and QCD scale, 10.75 below).", "quantifier": "all masses and mixing angles", "why_tests_cant": "continuum; boundary handling", "anchors": ["common/kinematics.py:decoupling_temperature_relativistic", "common/kinematics.py:decoupling_temperature"]}
{"id": "C95", "title": "Neutron freeze-out monitor", "statement": "step_monitor records the neutron decoupling and deuterium parameters at most once each (the first step satisfying the condition) and the estimated helium fraction lies strictly between 0 and 1 when deuterium generation is not earlier than neutron decoupling.", "quantifier": "every history of parameters and rates", "why_tests_cant": "unbounded histories", "anchors": ["semianalytic.py:step_monitor"]}
{"id": "C96", "title": "Kind argument validation", "statement": "CrossGeneratingInteraction accepts exactly None (meaning Full) and the eight kinds; anything else raises ValueError.", "quantifier": "every value passed as kind", "why_tests_cant": "all values", "anchors": ["interactions/__init__.py:CrossGeneratingInteraction.__init__"]}
{"id": "C97", "title": "Branching of fast decays", "statement": "When creation by a fast-decaying particle is rescaled, the created number integral of the rescaled vector equals BR times the number of decaying particles created, for any linear quadrature, and a zero created integral yields a zero contribution instead of a division.", "quantifier": "every vector, quadrature, branching ratio", "why_tests_cant": "continuum", "anchors": ["common/kinematics.py:scaling"]}
{"id": "C98", "title": "Initial time matches the expansion rate", "statement": "The age assigned at the start of a run, as a function of the energy density, satisfies 2*H*t = 1 with the Hubble rate that the same energy density produces.", "quantifier": "every positive energy density and every state", "why_tests_cant": "continuum of densities", "anchors": ["common/__init__.py:Params.init_time", "common/__init__.py:Params.update"]}
{"id": "C99", "title": "The history is exported even when KAWANO fails", "statement": "If evolve(T_final) reaches its target temperature in a run with a folder, evolution.txt holds the complete history even if the external KAWANO program cannot be run.", "quantifier": "every run and every failure of the external program", "why_tests_cant": "needs a failing external program at the end of an arbitrary run", "anchors": ["evolution.py:Universe.export", "kawano.py:run"]}
{"id": "C100", "title": "Splitting a run is transparent", "statement": "evolve(T1) followed by evolve(T2) records the same history as a single evolve(T2).", "quantifier": "every pair of temperatures and every physics", "why_tests_cant": "all split points of unbounded runs", "anchors": ["evolution.py:Universe.evolve"]}
{"id": "C101", "title": "Python and C++ table look-ups agree", "statement": "The Python distribution look-up (common.interp) and the compiled one (distribution_interpolation) return the same value for every momentum, and fail on exactly the same momenta (ValueError in Python, runtime_error in C++).", "quantifier": "every strictly increasing grid, table of the same length, mass, statistics, temperature, momentum and equilibrium flag", "why_tests_cant": "The two implementations search the grid differently; agreement on sampled momenta says nothing about boundaries of arbitrary grids.", "anchors": ["common/__init__.py:interp", "common/__init__.py:binary_find", "interactions/four_particle/cpp/integral.cpp:distribution_interpolation"]}
{"id": "C102", "title": "Zero-momentum kernel of massless particles", "statement": "When the first particle is massless and outside the mass term (or there is no mass term), the kernel used at p0 = 0 is the p0 -> 0+ limit of D/(p0*E0), except where the other three momenta form a degenerate triangle.", "quantifier": "all momenta, energies, masses, orders and sides with a non-degenerate triangle", "why_tests_cant": "limit statement over a continuum; the massless case needs second-order cancellations", "anchors": ["interactions/four_particle/cpp/Ds.cpp:Db"]}
{"id": "C103", "title": "Integration limits are ordered numbers", "statement": "For a kinematically possible four-particle decay, and for every scattering with p0 > 0 or a massive first particle, the limits handed to both quadratures are real numbers (never NaN) with the lower not above the upper.", "quantifier": "all masses and momenta within the outer limits", "why_tests_cant": "a negative argument of a square root shows up only for particular masses and momenta", "anchors": ["interactions/four_particle/cpp/integral.cpp:integration", "interactions/four_particle/cpp/integral.cpp:integrand_2nd_integration"]}
{"id": "C104", "title": "Explicitly listed interactions", "statement": "Interaction(name, integrals) holds the integrals it is given, with duplicates merged.", "quantifier": "every list of integrals", "why_tests_cant": "no shipped interaction uses the explicit constructor", "anchors": ["interactions/__init__.py:Interaction.__init__"]}
{"id": "C105", "title": "Stored distribution of an equilibrium particle", "statement": "After update() an equilibrium particle's stored distribution array is the equilibrium distribution at the current plasma temperature.", "quantifier": "every equilibrium particle and update", "why_tests_cant": "the lag is of the order of one step and hidden because equilibrium particles are evaluated analytically elsewhere", "anchors": ["particles/__init__.py:DistributionParticle.update", "particles/__init__.py:DistributionParticle.init_distribution"]}
{"id": "C107", "title": "Energy conservation with linear steps", "statement": "With LOGARITHMIC_TIMESTEP off the temperature equation, together with the distribution updates, conserves energy as it does with logarithmic steps: d(rho a^3) = -P d(a^3) for the whole particle content.", "quantifier": "all particle contents, states and quadrature rules", "why_tests_cant": "a differential identity over a continuum in a non-default mode", "anchors": ["particles/NonEqParticle.py:numerator", "interactions/four_particle/__init__.py:FourParticleIntegral.integrate", "evolution.py:Universe.integrand"]}
{"id": "C108", "title": "The oscillation map can be called as the bundled scripts call it", "statement": "The library's oscillation map called without arguments returns a flavour pattern; more generally it returns a pattern exactly when the matter parameters it needs are available, and the universe always supplies them.", "quantifier": "every combination of arguments, every universe", "why_tests_cant": "the failure depends on the combination of defaults; the scripts that use it are not run by the tests", "anchors": ["library/SM.py:particles.leptons.oscillations_map", "evolution.py:Universe.oscillation_parameters", "tests/paper_oscillations/__main__.py"]}
{"id": "C109", "title": "Oscillations conserve the flavour-summed change of the distributions", "statement": "During one distribution update of oscillating flavours, the flavour-summed distribution at every momentum changes by the step size times the flavour-summed collision integral, as long as no value is clipped at zero.", "quantifier": "every grid point, flavour order, decoupling status of the flavours, matter parameters", "why_tests_cant": "needs a universe in which only some flavours have decoupled", "anchors": ["evolution.py:Universe.update_distributions", "particles/__init__.py:DistributionParticle.update_distribution"]}
{"id": "C110", "title": "Momentum bounds of two-body decay products", "statement": "For a decay 3 -> 1 + 2 of a parent whose momentum lies on its grid, every momentum of particle 1 allowed by energy and momentum conservation lies between the two values returned by three_particle_bounds_creation, and no grid point with an allowed momentum ends up in the zero padding.", "quantifier": "all masses (parent massive), parent momenta up to the grid maximum, emission angles and grids", "why_tests_cant": "continuum of masses, boosts and angles", "anchors": ["common/kinematics.py:three_particle_bounds_creation", "common/kinematics.py:three_particle_grid_bounds_creation"]}
{"id": "C111", "title": "Momentum bound of three-body decay products", "statement": "For a decay 4 -> 1 + 2 + 3, every momentum of particle 1 allowed by energy conservation is at most the value returned by four_particle_bounds_creation, which is never below MAX_MOMENTUM_MEV; so no allowed grid point is dropped. For a kinematically forbidden reaction the bound is NaN and the whole grid is computed.", "quantifier": "all masses, momenta and grids", "why_tests_cant": "continuum; NaN path", "anchors": ["common/kinematics.py:four_particle_bounds_creation", "common/kinematics.py:four_particle_grid_cutoff_creation"]}
{"id": "C112", "title": "Meson used for the grid resolution", "statement": "For every sterile neutrino mass not below the pion mass the grid resolutions are based on the heaviest tabulated meson that is lighter than it; the resolutions are positive and never exceed FOUR_PARTICLE_GRID_RESOLUTION.", "quantifier": "every mass, every positive resolution", "why_tests_cant": "fails on a single mass value", "anchors": ["common/kinematics.py:grid_resolution_neutrino", "common/kinematics.py:grid_resolution_meson"]}
{"id": "C113", "title": "Multiplicity of identical products", "statement": "The collision multiplier is 1 unless the reaction involves a Dirac sterile neutrino or is a creation by a Dirac parent or of a neutral particle; then it is the number of copies of the particle on its own side for 2 copies (with at most one, resp. none for 3-particle reactions, on the other side) and 3 copies, and 1 otherwise. A particle without charge attribute created by a Majorana parent raises AttributeError.", "quantifier": "every 3- or 4-particle reaction", "why_tests_cant": "many combinations of sides and species", "anchors": ["common/kinematics.py:CollisionMultiplier4p", "common/kinematics.py:CollisionMultiplier3p"]}
{"id": "C114", "title": "Neglected interactions", "statement": "A 4-particle creation is skipped exactly when the parent has decayed or is fast-decaying and not created; a decay exactly when the particle is fast-decaying and not created or is a Dirac sterile neutrino lighter than the temperature; a scattering is never skipped when two particles of one side are not diluted and the sterile-neutrino cut does not apply, and a zero initial density never counts as dilution. 3-particle creations with a decayed parent are skipped only for the full kinds and for fast-decaying particles.", "quantifier": "every reaction, density, temperature", "why_tests_cant": "division by zero densities, many branches", "anchors": ["common/kinematics.py:Neglect4pInteraction", "common/kinematics.py:Neglect3pInteraction"]}
{"id": "C115", "title": "Grid parameters of the sterile neutrino", "statement": "For every mass and mixing angle grid_params_HNL succeeds, the maximal momentum lies between 199 and 400 MeV, the number of samples between 199 and 800, and the Boltzmann factor at the maximal momentum is exactly 1e-100.", "quantifier": "every mass >= 0, every mixing angle (also zero)", "why_tests_cant": "continuum", "anchors": ["common/kinematics.py:grid_params_HNL", "common/kinematics.py:grid_resolution_HNL"]}
{"id": "C116", "title": "Interactions of leptons conserve charge and lepton numbers", "statement": "Every interaction built by neutrino_interactions and lepton_interactions conserves electric charge and each lepton flavour number, and so does every reaction generated from it by crossing. The interactions of a sterile neutrino with leptons, quarks and mesons conserve charge and total lepton number.", "quantifier": "every list of charged leptons, neutrinos and quarks, every choice of mixing angles", "why_tests_cant": "the lists of particles are arbitrary and the crossings combinatorial", "anchors": ["library/SM.py:interactions.neutrino_interactions", "library/SM.py:interactions.lepton_interactions", "library/NuMSM.py:interactions"]}
{"id": "C117", "title": "Interactions of hadrons conserve charge", "statement": "Every reaction of every interaction built by meson_interactions and baryons_interaction conserves electric charge. (False: exactly K->3pi, K_L->pi e nu, K_L->pi mu nu and omega->pi pi pi0 violate it, e.g. K- -> pi- pi- pi-, and so does beta decay since the proton has Q=-1.)", "quantifier": "every list of primary mesons, every reaction", "why_tests_cant": "no test looks at charges", "anchors": ["library/SM.py:interactions.meson_interactions", "library/SM.py:interactions.baryons_interaction", "library/SM.py:particles"]}
{"id": "C118", "title": "Decay products are replenished by the decays", "statement": "For every decay of an unstable meson and each of its products there is a generated integral that belongs to the product and creates it from the decay. (False for ten products: those whose interaction is given without the charge-conjugated one. With the conjugate every product is replenished.)", "quantifier": "every channel of the library and, for the positive part, every decay with 3 or 4 particles", "why_tests_cant": "requires following which crossings are dropped", "anchors": ["library/SM.py:interactions.meson_interactions", "interactions/__init__.py:CrossGeneratingInteraction"]}
{"id": "C119", "title": "Each decay of a chain is included once", "statement": "meson_interactions includes the decays of exactly the primary mesons and of all mesons produced down the chain, each once. (False if a primary meson is listed after one which produces it: its decays are then included twice; the exact number of copies is given. Each is included once if no primary meson follows one which produces it.)", "quantifier": "every list of primary mesons", "why_tests_cant": "2^11 subsets times orders", "anchors": ["library/SM.py:interactions.meson_interactions"]}
{"id": "C120", "title": "Branching ratios are found", "statement": "For every reaction generated from a meson decay, with the meson alone on a side, exactly one entry of its table of branching ratios has the symbols of the products, and the lookup returns it; the ratios of a meson are positive and sum to at most one. (They do not sum to one for the charged kaon, and tau, which is flagged as fast-decaying, has no table: the lookup raises AttributeError.)", "quantifier": "every channel and generated reaction of the library, every list of products", "why_tests_cant": "lookup by multiset of symbols", "anchors": ["common/kinematics.py:branching_ratio", "library/SM.py:particles"]}
{"id": "C121", "title": "Neutrino interactions are enumerated without repetition", "statement": "neutrino_interactions lists each unordered pair of neutrinos, equal ones included, exactly once and each pair of a charged lepton and a neutrino once; lepton_interactions lists the charged-current interactions of exactly the pairs of distinct leptons and distinct neutrinos of matching flavours.", "quantifier": "every list of leptons and neutrinos", "why_tests_cant": "any length", "anchors": ["library/SM.py:interactions.neutrino_interactions", "library/SM.py:interactions.lepton_interactions"]}
{"id": "C126", "title": "Filtered sterile interactions and decay products", "statement": "Of the two sterile scattering interactions of a pair the second only keeps reactions led by particles which lead none of the first. interactions_decay_products keeps exactly the reactions of creation or decay type, and gives them the kind of their type, in vacuum or not.", "quantifier": "every triple of neutrinos, every environment and list of primary interactions", "why_tests_cant": "combinatorial", "anchors": ["library/NuMSM.py:interactions.sterile_leptons_interactions", "library/NuMSM.py:interactions.interactions_decay_products"]}
{"id": "C122", "title": "Constant squared amplitudes are not negative", "statement": "The constant squared matrix elements attached to meson interactions (pion decays and sterile neutrino interactions with scalar and vector mesons) are never negative.", "quantifier": "all particles with positive masses, mixing angles and mesons of the library's kinds", "why_tests_cant": "The sign depends on mass ratios chosen by the user (sterile mass), which tests sample at a point or two", "anchors": ["library/SM.py:decay_charged_pion", "library/SM.py:decay_neutral_pion", "library/NuMSM.py:interactions.sterile_hadrons_interactions"]}
{"id": "C123", "title": "Sterile meson interactions use the mixing angle of the flavour involved", "statement": "In every interaction of a sterile neutrino with a meson and a neutrino (or charged lepton), the squared amplitude is computed with the mixing angle of that neutrino's (lepton's) flavour.", "quantifier": "all mixing angles, sterile neutrinos, lists of neutrinos, leptons and mesons", "why_tests_cant": "A leftover loop variable gives the right value whenever the angles happen to be equal, as in the bundled setups", "anchors": ["library/NuMSM.py:sterile_hadrons_interactions", "library/NuMSM.py:charged_vector_meson"]}
{"id": "C124", "title": "The annihilation amplitude is the same for active and sterile neutrinos", "statement": "At unit mixing, the squared amplitude of neutrino-antineutrino annihilation into charged leptons is the same function of the four-momenta for active and for sterile neutrinos, with the left coupling multiplying (nu.l+)(anti-nu.l-).", "quantifier": "all couplings and four-momenta", "why_tests_cant": "The difference vanishes after integrating over symmetric lepton distributions, so total rates do not reveal it", "anchors": ["library/SM.py:neutrinos_to_leptons", "library/NuMSM.py:sterile_active_to_leptons_NC", "common/__init__.py:CONST"]}
{"id": "C127", "title": "Squared amplitudes of the weak interactions are never negative", "statement": "Every collision integral generated by crossing from the library's four-particle weak interactions has a squared amplitude that is not negative for any physical on-shell momenta, including the interference terms whose signs flip under crossing.", "quantifier": "all particle lists, couplings, mixing angles, masses of leptons and quarks, generated reactions and physical momenta", "why_tests_cant": "Positivity for all momenta and all crossings of all interactions cannot be sampled; a wrong sign of the mass term under crossing only shows near the corners of phase space", "anchors": ["interactions/__init__.py:CrossGeneratingInteraction", "interactions/four_particle/__init__.py:FourParticleM", "library/SM.py:neutrino_interactions", "library/NuMSM.py:sterile_leptons_interactions"]}
{"id": "C129", "title": "A particle can be created with the default attributes", "statement": "Creating a particle with a universe's parameters succeeds whatever subset of the optional attributes is given, the defaults filling in the rest; in particular a species that takes no part in the thermal bath can be created without giving its charge.", "quantifier": "all particle configurations, scale factors, temperatures and decoupling temperatures", "why_tests_cant": "The bundled scripts always use the library's attribute sets, which list every attribute; the failing combination is never constructed.", "anchors": ["particles/__init__.py:AbstractParticle._defaults", "particles/__init__.py:DistributionParticle.set_params", "particles/__init__.py:DistributionParticle.update"]}
{"id": "C130", "title": "Collision integrands are evaluated at energy-conserving on-shell momenta", "statement": "Every point at which the compiled three- and four-particle integrands are non-trivial has all participants on their mass shell and conserves energy, a point exists exactly when energy conservation leaves the last particle at least its mass, and the integrand there is the product of the velocities of the integrated particles, the summed matrix elements divided by momentum times energy of the first particle, and the functional of the occupations of all participants at those momenta.", "quantifier": "all momenta, masses, reaction sides, occupations, matrix elements and functional kinds", "why_tests_cant": "every momentum and mass; a wrong index or sign changes the rate silently", "anchors": ["interactions/four_particle/cpp/integral.cpp:integrand_full", "interactions/three_particle/cpp/integral.cpp:integrand_full"]}
{"id": "C131", "title": "No collision term in thermal equilibrium", "statement": "When all participants of a reaction have Fermi-Dirac or Bose-Einstein distributions of one temperature and chemical potentials conserved by the reaction, the full collision integrand is exactly zero at every point, for every matrix element.", "quantifier": "all temperatures, chemical potentials, masses, statistics, reaction sides, matrix elements and momenta, three and four participants", "why_tests_cant": "ranges over all reactions and momenta; numerical tests only see approximate cancellation", "anchors": ["interactions/four_particle/cpp/integral.cpp:integrand_full", "interactions/three_particle/cpp/integral.cpp:integrand_full"]}
{"id": "C128", "title": "The units of length, time, mass, force and density agree", "statement": "With c = hbar = 1, the exported second is a light-second of the exported metre, the newton is a kilogram metre per second squared, g/cm^3 follows from kilogram and metre, and the exported gravitational constant has its measured value in these units, each within one percent.", "quantifier": "the module's units and constants (closed statement)", "why_tests_cant": "no test compares the units with each other", "anchors": ["common/__init__.py:UNITS.reset_units", "common/__init__.py:CONST"]}
{"id": "C132", "title": "Physics does not depend on the chosen energy unit", "statement": "After assigning a new energy unit and calling UNITS.reset_units(), every unit and every physical constant scales with the power of energy of its dimension, so that pure numbers such as the Planck mass in MeV stay the same.", "quantifier": "all energy units and all histories of assignments and resets", "why_tests_cant": "ranges over all histories; tests run with the default unit", "anchors": ["common/__init__.py:UNITS.reset_units", "common/__init__.py:CONST"]}
{"id": "C133", "title": "Vacuum decay rate and time dilation", "statement": "The three-particle collision integral of a decay into two products with constant squared amplitude K, in the vacuum-decay kind, returns for every momentum y of a grid starting at zero exactly -(K q / (8 pi m^2) / H) * (m / E(y/a)) times the multiplicity factor over the number of spin states (and over x with linear steps): the rest-frame two-body width, slowed down by time dilation; q is the momentum of the products in the rest frame.", "quantifier": "all masses with m1 + m2 < m0 (massless products included), all positive a and aT, all H, K, all grids and their lengths", "why_tests_cant": "Tests compare one decay at one temperature with a tolerance set by the quadrature; the closed form fixes every prefactor, the limits of integration and the special case of zero momentum at once.", "anchors": ["interactions/three_particle/__init__.py:ThreeParticleIntegral.integrate", "interactions/three_particle/cpp/integral.cpp:integrand_full", "interactions/three_particle/cpp/integral.cpp:integration_3"]}
{"id": "C134", "title": "Decay rates for momenta that do not start at zero", "statement": "integrate(ps) of a three-particle decay returns the dilated decay rate at every requested momentum, whatever momentum comes first.", "quantifier": "all momentum arrays", "why_tests_cant": "Every bundled grid starts at zero, so no test passes another array.", "anchors": ["interactions/three_particle/__init__.py:ThreeParticleIntegral.integrate"]}
{"id": "C135", "title": "An event weighs the same for all its participants", "statement": "For momenta-dependent amplitudes and for all three-particle reactions: the contribution of one collision event to the number of a participant, in terms of the energies, is the same for participants of the same side and opposite for participants of opposite sides, whichever participant the collision integral is written for; hence collisions conserve particle numbers and energy.", "quantifier": "all reactions of three or four participants, all orderings and crossings, all on-shell momenta and occupations", "why_tests_cant": "The integrals of two participants are computed on different grids with different limits; a test can only compare the sums after quadrature, to the accuracy of the grids.", "anchors": ["interactions/three_particle/cpp/integral.cpp:integrand_full", "interactions/four_particle/cpp/integral.cpp:integrand_full", "interactions/four_particle/cpp/Ds.cpp:D"]}
{"id": "C136", "title": "Events with a constant squared amplitude weigh the same for all participants", "statement": "The statement of C135 also holds for four-particle reactions whose matrix element has a constant squared amplitude (K).", "quantifier": "all four-particle reactions with K", "why_tests_cant": "No test compares the loss of a decaying meson with the gain of its products.", "anchors": ["interactions/four_particle/cpp/integral.cpp:integrand_full", "library/SM.py:four_particle_meson_decay", "interactions/four_particle/__init__.py:FourParticleM"]}
{"id": "C137", "title": "The collision integral does not depend on the unit of the integration variables", "statement": "integrate() expresses momenta, masses and limits in units of the current aT before the integration and multiplies by a power of aT afterwards; the returned collision integral is the same whatever positive aT is used as the unit, for every matrix element and every kind of integral.", "quantifier": "all positive units, scale factors, reactions, occupations, grids, limits and matrix elements", "why_tests_cant": "Changing the unit needs a different params.aT with the same physical state, which no test sets up; aT stays near one at the start of every bundled run, so a wrong power is invisible.", "anchors": ["interactions/four_particle/__init__.py:FourParticleIntegral.integrate", "interactions/three_particle/__init__.py:ThreeParticleIntegral.integrate", "interactions/four_particle/cpp/integral.cpp:integrand_full"]}
{"id": "C138", "title": "Three-body decays at rest proceed at the textbook rate", "statement": "For a particle at rest that decays into three massless particles in vacuum, integrate() returns minus the decay rate over the Hubble rate, where the decay rate is the squared amplitude integrated over the Dalitz region divided by (2 pi)^3 32 m^3; with leptons_CC's amplitude the muon's rate is G_F^2 m^5 / 192 pi^3. This holds for matrix elements bilinear in four-momentum products and for constant squared amplitudes (K) alike.", "quantifier": "all masses, scale factors, units, integration limits that contain the phase space, and orders of the four-momentum products", "why_tests_cant": "The tests compare decay rates only through whole evolutions with finite grids and tolerances; the constant-amplitude three-body decays are never compared to their width.", "anchors": ["interactions/four_particle/__init__.py:FourParticleIntegral.integrate", "interactions/four_particle/cpp/integral.cpp:integrand_full", "interactions/four_particle/cpp/Ds.cpp:Db1", "library/SM.py:leptons_CC"]}
{"id": "C139", "title": "Matrix elements of the meson decays agree with the tabulated lifetimes", "statement": "For every two-body decay meson_interactions builds, the rate integrate() gives for the decay in vacuum, at every momentum, is that of a particle whose width at rest times its tabulated lifetime is its tabulated branching ratio, to 2.5 per cent; for every decay into three particles it builds, the textbook width with the tabulated squared amplitude, K times the area of the Dalitz region over (2 pi)^3 32 m^3, times the lifetime is the tabulated branching ratio, to 2.5 per cent; for the muon G_F^2 m^5/(192 pi^3) times the tabulated lifetime is one to 0.5 per cent.", "quantifier": "all two- and three-body decays in the result for any list of primary mesons; for two bodies all scale factors, expansion rates and grids starting at zero", "why_tests_cant": "The matrix elements are literals fitted by hand and in most runs the rates are rescaled to the lifetimes afterwards, so no result shows a wrong literal.", "anchors": ["library/SM.py:meson_interactions", "library/SM.py:particles", "interactions/three_particle/__init__.py:ThreeParticleIntegral.integrate"]}
{"id": "C140", "title": "Widths of sterile neutrinos into charged mesons", "statement": "For every decay of a sterile neutrino into a lepton and a charged meson that sterile_hadrons_interactions builds, integrate() gives in vacuum the rate G_F^2 f^2 |V|^2 theta^2 M^3/(16 pi) times the standard function of the masses, with V the element of the quark mixing matrix for the quarks of the meson.", "quantifier": "all sterile masses above threshold, Majorana or Dirac, all mixing angles, leptons, mesons of the library, scale factors and momenta", "why_tests_cant": "Widths of single channels are not exposed; only the decay of the total abundance on a finite grid is.", "anchors": ["library/NuMSM.py:sterile_hadrons_interactions", "library/NuMSM.py:charged_scalar_meson", "library/NuMSM.py:charged_vector_meson"]}
{"id": "C141", "title": "Widths of sterile neutrinos into neutral mesons", "statement": "For every decay of a sterile neutrino into a neutrino and a neutral meson that sterile_hadrons_interactions builds, the rate is G_F^2 f^2 theta^2 M^3/(32 pi) times the standard function of the masses and twice the square of the coupling of the meson's quarks to the Z.", "quantifier": "all sterile masses above threshold, Majorana or Dirac, all mixing angles, all neutral mesons other than eta and eta prime", "why_tests_cant": "As C140; the couplings of omega, phi and neutral kaons only matter for sterile masses no test uses.", "anchors": ["library/NuMSM.py:sterile_hadrons_interactions", "library/NuMSM.py:neutral_scalar_meson", "library/NuMSM.py:neutral_vector_meson"]}
{"id": "C142", "title": "Sterile neutrino decays create as many products as sterile neutrinos are lost", "statement": "For every decay channel of a sterile neutrino built by the NuMSM interaction library (three neutrinos, neutrino with a charged lepton pair, charged current, neutral and charged mesons), the number of sterile neutrinos removed by the decay integrals, weighted by degrees of freedom, by the multipliers of the integrals and by the modifiers of the particle, is matched by the number of particles of each product species created by the integrals of that species, times its multiplicity in the channel.", "quantifier": "every identity and mass of the sterile neutrino above the threshold of the channel, both Dirac and Majorana, every flavour and lepton family, every meson of the library, every simulation that holds these particles", "why_tests_cant": "a run shows only final spectra, where a factor two in the source of one product is absorbed into mixing angle or lifetime; checking needs all channels, all reactions of each channel and all sterile neutrinos at once", "anchors": ["library/NuMSM.py:interactions", "common/kinematics.py:CollisionMultiplier4p", "common/kinematics.py:CollisionMultiplier3p", "interactions/__init__.py:CrossGeneratingInteraction"]}
{"id": "C143", "title": "Energy is conserved in the decay of a sterile neutrino into three neutrinos", "statement": "In the decay of a sterile neutrino at rest into three massless neutrinos, the energy that the collision integrals of the neutrinos add per volume and time equals the energy that the integral of the sterile neutrino removes, with the weights and the crossed matrix elements that the library attaches to each integral.", "quantifier": "every identity and mass of the sterile neutrino, Dirac and Majorana, every mixing angle, every pair of flavours", "why_tests_cant": "the loss is five or ten per cent of one channel and spread over a spectrum; a run has no exact energy balance to compare with", "anchors": ["library/NuMSM.py:sterile_active_scattering", "library/NuMSM.py:sterile_leptons_interactions", "interactions/four_particle/__init__.py:FourParticleM", "common/kinematics.py:CollisionMultiplier4p"]}
{"id": "C144", "title": "Widths of sterile neutrinos equal the textbook ones", "statement": "The decay rate that the collision integrals give a sterile neutrino at rest in each three-body channel, products taken as massless, is G_F^2 m^5 theta^2/(192 pi^3) times the textbook coefficient of the channel: 1 for three neutrinos, (1 +- 4s + 8s^2)/4 for a neutrino and a lepton pair, 1 for a charged current, and with three colours for quarks; doubled for a Majorana particle.", "quantifier": "every identity, mass and mixing angle, Dirac and Majorana, every flavour, lepton, quark and pair of quarks of the library", "why_tests_cant": "the width enters a run only through lifetimes which are fitted by the mixing angle; the missing factors 2 and 3 need the sum over all channels in closed form", "anchors": ["library/NuMSM.py:sterile_leptons_interactions", "library/NuMSM.py:sterile_quark_neutral", "library/NuMSM.py:sterile_quark_charged", "interactions/four_particle/__init__.py:FourParticleIntegral"]}
{"id": "C145", "title": "A free neutron decays at the rate the normalisation is chosen for, and a medium only slows it down", "statement": "The rates handed to the nucleosynthesis code are in units of the free neutron decay rate. In empty space, with the integral taken exactly, the neutron decay rate is 1 to within one part in a hundred thousand, at every scale factor and in every choice of energy unit, and the five other weak rates vanish. In any medium with occupation numbers between 0 and 1 the decay rate is not negative and not larger than the rate in empty space.", "quantifier": "every positive scale factor and temperature, every pair of occupation functions with values in [0,1]", "why_tests_cant": "the normalisation is one hand-written number with six digits, to be compared with an integral over a singular integrand; a run only prints a mixture of it and of the thermal corrections", "anchors": ["kawano.py:_rate3", "kawano.py:baryonic_rates", "common/__init__.py:CONST.rate_normalization"]}
{"id": "C146", "title": "The particle tables have the quantum numbers of the particles", "statement": "For every particle of the tables, and for sterile neutrinos of every mass: the degrees of freedom are the spin states times the colours, with the antiparticle counted when it is distinct; the majorana flag says whether it is; the statistics is that of the number of constituents and of the spin; the charge is that of the constituents, except for the proton, which has charge -1; the masses are the measured ones to a thousandth (quarks to three hundredths); names, symbols and identities are distinct; the fundamental particles add up to 96.75 effective degrees of freedom.", "quantifier": "every particle of the standard model table, sterile neutrinos of both kinds with every mass and identity", "why_tests_cant": "a wrong entry changes a density or a rate by a factor that no test of the solver looks at", "anchors": ["library/SM.py:particles", "library/NuMSM.py:particles.sterile_neutrino", "library/NuMSM.py:particles.dirac_sterile_neutrino"]}
{"id": "C147", "title": "A charged lepton decays into each lighter one at the measured rate", "statement": "With any selection of charged leptons and neutrinos, the interactions of the library make a charged lepton at rest decay into each lighter one whose neutrino, and its own, take part, each at the rate G_F^2 m^5 / (192 pi^3) (products taken as massless); as many electrons, muons and neutrinos of each kind appear as leptons decay; for the muon this is the inverse lifetime of the library to one per cent, for the tau the fraction 0.178 of it that is measured for the electron channel.", "quantifier": "every selection of distinct charged leptons and neutrinos in every order, every decaying lepton", "why_tests_cant": "the rate is the product of a list of crossings, filters, symmetry factors and a phase space integral; a run shows only thermal averages", "anchors": ["library/SM.py:interactions.lepton_interactions", "library/SM.py:interactions.leptons_CC", "interactions/four_particle/__init__.py:FourParticleIntegral.integrate", "interactions/__init__.py:CrossGeneratingInteraction"]}
{"id": "C148", "title": "The constants agree with measurements and with each other", "statement": "The energy units form an exact ladder; second and kelvin give the measured hbar and Boltzmann constant; the constants agree with measured values; the Weinberg angle, the fine-structure constant, the Fermi constant and the W mass satisfy the electroweak relation with a radiative correction of 6 to 8 per cent; rows and columns of the quark mixing matrix have norm one to two thousandths; the matter term of neutrino oscillations is twice the energy times the potential of an electron-positron plasma to half a per cent, for every energy and temperature; the kaons share one decay constant.", "quantifier": "every constant of the module; every energy and temperature for the matter term; every row and column of the mixing matrix", "why_tests_cant": "a wrong digit in a constant changes every result a little, and no test compares the constants with anything", "anchors": ["common/__init__.py:UNITS", "common/__init__.py:CONST", "library/SM.py:particles", "evolution.py:Universe.oscillation_parameters"]}
{"id": "C149", "title": "Every collision raises the entropy", "statement": "If the occupations of the participants of a reaction change at the rate the full collision functional returns (up on the left side, down on the right, times any positive weight), the sum of their Fermi-Dirac and Bose-Einstein entropies does not decrease, and its rate of change is zero exactly when the functional is zero.", "quantifier": "all reactions with any number of participants, any statistics, all occupations strictly between their bounds, all positive weights", "why_tests_cant": "A continuum of occupations; an entropy decrease would show only as a slow drift", "anchors": ["interactions/four_particle/cpp/integral.cpp:F_A", "interactions/four_particle/cpp/integral.cpp:F_B", "interactions/three_particle/cpp/integral.cpp:F_f"]}
{"id": "C150", "title": "Neutrino collision integrals have the published amplitudes", "statement": "With any selection of neutrinos and charged leptons, every collision integral that the library generates for a neutrino has, as a function of the four momenta, exactly the squared amplitude tabulated in the literature for its reaction (neutrino scattering within one flavour and between two, flavour change, annihilation into charged leptons, scattering on charged leptons, with the couplings of the flavour), summed over the antiparticles merged into it and over exchanging the momenta of identical outgoing species; every reaction of the table has an integral and it occurs once.", "quantifier": "all selections of neutrinos and charged leptons, all reactions, all four-momenta", "why_tests_cant": "Tests check the coefficients of one self-scattering; the crossed and merged amplitudes are functions on a continuum, for every flavour combination", "anchors": ["library/SM.py:interactions.neutrino_interactions", "interactions/__init__.py:CrossGeneratingInteraction", "interactions/__init__.py:IntegralDeduplicator"]}
{"id": "C151", "title": "Every event of lepton and neutrino scattering changes all its participants alike", "statement": "For every collision integral that the neutrino and lepton interactions of the library create, and for every participant of its reaction, there is an integral for that participant's own equation which describes the same events (the reaction read from the participant; backwards for an outgoing one) with the same squared amplitude, summed over the exchange of identical particles. Its weight in the equation is the same, so that one event adds to the number of every incoming participant what it takes from every outgoing one, and with it conserves number, energy and charges. No event is counted by two integrals of one participant.", "quantifier": "all subsets of the leptons and neutrinos of the library, all integrals, all places in the reaction, all momenta, all nonnegative occupations and statistics", "why_tests_cant": "The integrals of different participants come out of crossing, dropping of antiparticles and merging of different template reactions; a run sees the sum of quadratures on grids, where a lost factor of two in one participant's equation hides behind the other interactions.", "anchors": ["library/SM.py:neutrino_interactions", "library/SM.py:lepton_interactions", "interactions/__init__.py:CrossGeneratingInteraction", "interactions/four_particle/__init__.py:FourParticleIntegral.integrate"]}
{"id": "C152", "title": "Scattering of a sterile neutrino off an active one does not create or destroy energy", "statement": "For every sterile neutrino (Majorana or Dirac, any identity and mass), every mixing and every two flavours a, b, take the collision integrals that the library creates for N + nu_b -> nu_a + nu_b. Each event is accounted for in the equation of each of its four participants, and what the equations of all of them change the total energy by in one event adds up to zero.", "quantifier": "all sterile neutrinos, masses, mixings and pairs of flavours, all occupation numbers and kinematically possible events", "why_tests_cant": "Needs the amplitudes of all generated and filtered integrals at once, for every event; the code itself only carries the remark that something is not right here.", "anchors": ["library/NuMSM.py:interactions.sterile_active_scattering", "library/NuMSM.py:interactions.sterile_leptons_interactions", "interactions/__init__.py:CrossGeneratingInteraction", "interactions/four_particle/__init__.py:FourParticleIntegral.integrate"]}
{"id": "C153", "title": "The Gauss rule is exact to twice its order", "statement": "For every weight (a linear functional on polynomials) with recursion coefficients alpha and beta, the nodes and weights returned by gauss(alpha, beta) integrate every polynomial of degree below 2n exactly, n being the number of coefficients. The nodes are the n different zeros of the orthogonal polynomial of degree n and the weights are positive.", "quantifier": "all weights, all coefficient arrays of any length with positive beta, all polynomials below degree 2n, every eigensolver that returns an orthonormal decomposition", "why_tests_cant": "The test script compares one rule of one order with another library; exactness for all polynomials and all weights is the Golub-Welsch theorem.", "anchors": ["common/orthopoly.py:gauss"]}
{"id": "C154", "title": "The Radau and Lobatto rules contain the prescribed nodes and are exact to degrees 2n-2 and 2n-3", "statement": "radau(alpha, beta, xr) with n coefficients returns n nodes, among them xr, and integrates every polynomial of degree below 2n-1 exactly. lobatto(alpha, beta, xl1, xl2) returns n nodes, among them xl1 and xl2, and is exact below degree 2n-2. With a single coefficient both raise IndexError.", "quantifier": "all weights, coefficient arrays, prescribed nodes and polynomials, every sound eigensolver and banded solver", "why_tests_cant": "The modified last coefficients are correct only through an identity between two tridiagonal solves; a wrong index still gives a rule that is nearly right.", "anchors": ["common/orthopoly.py:radau", "common/orthopoly.py:lobatto"]}
{"id": "C155", "title": "Computing a Radau or Lobatto rule leaves the coefficient arrays as they were", "statement": "After radau(alpha, beta, xr) or lobatto(alpha, beta, xl1, xl2) the arrays passed in hold the same values as before.", "quantifier": "all coefficient arrays and nodes", "why_tests_cant": "A test that builds new arrays for every call never looks at the old ones.", "anchors": ["common/orthopoly.py:radau", "common/orthopoly.py:lobatto"]}
{"id": "C156", "title": "The modified Chebyshev algorithm returns the recursion coefficients of the weight with the given moments", "statement": "Given modified moments of a positive weight with respect to the polynomials of any recursion coefficients, mod_chebyshev(N, mom, alpham, betam) returns the first N recursion coefficients of that weight and the norms of its orthogonal polynomials. Too small an N or too few moments raise an error.", "quantifier": "all positive weights, all auxiliary coefficients, all N", "why_tests_cant": "A table of mixed moments filled in place: an index off by one in the update changes coefficients only from the third on.", "anchors": ["common/orthopoly.py:mod_chebyshev"]}
{"id": "C157", "title": "Gauss-Jacobi rules of the library integrate against the Jacobi weight exactly", "statement": "For natural a, b and every N >= 2, gauss(*rec_jacobi(N, a, b)) has N nodes and gives the integral over [-1,1] of f(x) (1-x)^a (1+x)^b for every polynomial f of degree below 2N; gauss(*rec_jacobi01(N, a, b)) gives the integral over [0,1] of f(t) (1-t)^a t^b.", "quantifier": "all N >= 2, all natural exponents, all polynomials below degree 2N, every sound eigensolver", "why_tests_cant": "Needs orthogonality of every Jacobi polynomial under the Riemann integral; a test compares finitely many moments.", "anchors": ["common/orthopoly.py:rec_jacobi", "common/orthopoly.py:rec_jacobi01", "common/orthopoly.py:gauss"]}
{"id": "C158", "title": "The polynomial evaluators and the coefficients of the logarithmic weight can be computed on the supported Python", "statement": "On Python 3, which the package demands, rec_jaclog(N, a) returns coefficients for every N >= 1 and a > -1, and polyval evaluates the polynomials of any coefficients.", "quantifier": "all orders, exponents, coefficient and argument arrays", "why_tests_cant": "No test calls these functions.", "anchors": ["common/orthopoly.py:polyval", "common/orthopoly.py:jacobi", "common/orthopoly.py:jacobiD", "common/orthopoly.py:mm_log", "common/orthopoly.py:rec_jaclog"]}
{"id": "C159", "title": "jacobiD returns the derivatives of the polynomials that jacobi returns", "statement": "For both normalisations, column k of jacobiD(N, a, b, x, NOPT) is the derivative at x of column k of jacobi(N, a, b, x, NOPT).", "quantifier": "all N, all real a, b > -1, all x, both normalisations", "why_tests_cant": "A derivative formula checked at the lowest degrees or for one normalisation says nothing about the others.", "anchors": ["common/orthopoly.py:jacobi", "common/orthopoly.py:jacobiD"]}
{"id": "C160", "title": "The Jacobi coefficients exist for every order from one", "statement": "rec_jacobi01(N, a, b), whose own check demands N >= 1, returns coefficients for every N >= 1 and a, b > -1 and raises ValueError for N < 1.", "quantifier": "all orders and exponents above -1", "why_tests_cant": "Tests use large orders; the one-point rule takes its own branch.", "anchors": ["common/orthopoly.py:rec_jacobi", "common/orthopoly.py:rec_jacobi01", "common/orthopoly.py:gauss"]}
{"id": "C161", "title": "The KAWANO table reads back to the saved steps", "statement": "After any number of saved steps, the table file handed to KAWANO has one heading line with the twelve column names and then exactly one line per saved step; the twelve tab-separated fields of a line read back, in the order of the heading and in its units (s, MeV, 10^9 K, 10^9 K/s, g/cm^3, 1/s, dimensionless), to the values of that step, up to the relative error of the number format. A step with more or fewer than six rates is rejected with an exception.", "quantifier": "all sequences of saved steps, all positive units, every number format that writes no tabs or line breaks and reads back within a relative error", "why_tests_cant": "A test compares a few files by eye; the alignment of names, units and values for every row after arbitrary growth of the table is a statement about all runs.", "anchors": ["evolution.py:Universe.init_kawano", "evolution.py:Universe.save", "kawano.py:heading", "common/utils.py:DynamicRecArray.row_repr"]}
{"id": "C162", "title": "Saved text tables read back to the recorded rows", "statement": "The text that savetxt writes for a table has one heading line, whose j-th tab-separated entry is the j-th column name followed by its unit if it has one, and one line per visible row; the j-th field of a line times the unit of column j equals the stored value up to the relative error of the format.", "quantifier": "all tables, with any columns whose names and units contain no tabs or line breaks and any nonzero unit factors", "why_tests_cant": "Quantifies over all column layouts and table contents, including rows beyond the initial capacity.", "anchors": ["common/utils.py:DynamicRecArray.savetxt", "evolution.py:Universe.export"]}
{"id": "C163", "title": "Importing a KAWANO table", "statement": "kawano.import_data reads a table written by a run and returns its rows.", "quantifier": "all files, in particular all tables written by a run with at least one saved step", "why_tests_cant": "The function is only reached from plotting scripts and needs pandas; no test calls it. The claim is about every input file.", "anchors": ["kawano.py:import_data", "kawano.py:heading"]}
{"id": "C164", "title": "Charged currents of a sterile neutrino change all their participants alike", "statement": "Take the collision integrals the library creates for a sterile neutrino N, a neutrino of the family of a charged lepton l' and another charged lepton l. Every event of these integrals is accounted for in the equation of each of its four participants with the same amplitude, in the opposite direction on the two sides, and what the equations of all participants change the total energy by in one event adds up to zero. The events are the decay N -> nu l l', the scattering off the neutrino and the scattering off l; the scattering off l' is in no equation.", "quantifier": "all sterile neutrinos (Dirac and Majorana) of any identity and of any mass above the three others together, all mixings, all pairs of families, all occupation numbers and kinematically possible events", "why_tests_cant": "Needs the amplitudes, weights and filters of all generated integrals of four equations at once, for every event.", "anchors": ["library/NuMSM.py:interactions.sterile_leptons_interactions", "library/NuMSM.py:interactions.sterile_active_to_leptons_CC", "interactions/__init__.py:CrossGeneratingInteraction", "interactions/four_particle/__init__.py:FourParticleIntegral.integrate"]}
{"id": "C165", "title": "Scattering of a sterile neutrino off a charged lepton reaches the equations of all participants", "statement": "For every sterile neutrino N, neutrino nu and charged lepton l, the scattering N + l -> nu + l that the library puts into the equation of N is also in the equations of nu and l.", "quantifier": "all sterile neutrinos of any identity and of any mass above nu + 2 l, Dirac and Majorana, all flavours, all charged leptons, all mixings", "why_tests_cant": "The integrals of nu and l are removed by filters that look at names and counts; only looking at all equations of all leptons together shows that no integral is left.", "anchors": ["library/NuMSM.py:interactions.sterile_leptons_interactions", "library/NuMSM.py:interactions.sterile_active_to_leptons_NC", "interactions/__init__.py:CrossGeneratingInteraction"]}
{"id": "C166", "title": "A monitor shows at most thirteen curves", "statement": "However often the distribution plot of a particle monitor is updated, its axes hold the newest curves in drawing order: all of them up to twelve, the newest twelve after the thirteenth update, the newest thirteen ever after. None is fainter than 0.8^11. Every curve that stays on the axes is dimmed by each update.", "quantifier": "every number of updates", "why_tests_cant": "the list of curves changes while it is walked over; what is skipped depends on the whole history", "anchors": ["plotting.py:age_lines", "plotting.py:RadiationParticleMonitor.plot", "plotting.py:MassiveParticleMonitor.plot"]}
{"id": "C167", "title": "Plotted points stay within the limits of the axes", "statement": "Whatever rows of positive quantities are plotted in the order of time, all values ever plotted are within the vertical limits of their plot, each limit is the first one or within ten percent of a plotted value, and once a time has reached the first right limit all times shown are within the horizontal limits. The curve consists of the newest points of the rows at a time other than zero.", "quantifier": "every ring length, every number of plots with any limits, every history of rows", "why_tests_cant": "ranges over all orders of rising and falling values; limits are updated incrementally from running extremes that include evicted points", "anchors": ["plotting.py:Plotting.plot", "plotting.py:Plotting.__init__", "common/utils.py:ring_deque"]}
{"id": "C168", "title": "Monitors of particles", "statement": "Plotting.monitor gives every particle of its list its own row of two axes, after the monitors already present. The history of a monitor holds all its points, plot by plot and in order.", "quantifier": "every list of particles, every sequence of points", "why_tests_cant": "ranges over lists of any length; the one-element list changes the shape of what subplots returns", "anchors": ["plotting.py:Plotting.monitor", "plotting.py:ParticleMonitor.scatter", "plotting.py:ParticleMonitor.plot_function"]}
{"id": "C169", "title": "The live view shows the data file", "statement": "While the data file grows, the live monitor plots every row of it, each once; a shorter file starts the view afresh; a file whose time has not advanced is not read.", "quantifier": "every sequence of modification times and lengths read", "why_tests_cant": "depends on how the growth of the file interleaves with the polling", "anchors": ["plotting.py:monitor_datafile"]}
{"id": "C170", "title": "printoptions and benchmark are transparent", "statement": "The body of printoptions runs with the options asked for and every other option as it was, and afterwards all options are as before. benchmark passes on the value or exception of its body and prints one line if asked, with the name found after the body.", "quantifier": "every set of options, every body, including bodies that change options or raise", "why_tests_cant": "ranges over all bodies and over failures inside them", "anchors": ["common/utils.py:printoptions", "common/utils.py:benchmark", "evolution.py:Universe.calculate_collisions"]}
{"id": "C171", "title": "Log files of universes", "statement": "A message printed after any number of Universes with folders have been made is written once where it went before and once into the log of every Universe. The log of a Universe receives only its own output, and assigning sys.stdout redirects the output.", "quantifier": "every number of Universes, every stream in place before", "why_tests_cant": "depends on object lifetimes and on all universes made earlier in the process", "anchors": ["common/utils.py:Logger", "evolution.py:Universe.init_log"]}
{"id": "C172", "title": "Folders for the output", "statement": "ensure_dir makes the missing directories of a path and changes nothing else, failing exactly when an ancestor is a plain file. A new Universe with a folder has an empty log in it and nothing else there, leaves everything outside as it was and adds only the directories on the way. ensure_dir returns a directory, ensure_path prepares any path, and earlier results in the folder survive.", "quantifier": "every file system tree, every path", "why_tests_cant": "ranges over all trees; tests run in one temporary folder", "anchors": ["common/utils.py:ensure_dir", "common/utils.py:ensure_path", "evolution.py:Universe.__init__", "evolution.py:Universe.init_log"]}
{"id": "C173", "title": "Interpolated distributions are accurate to second order", "statement": "Write a distribution as 1/(exp(u(E)) + eta). If the second derivative of u is at most M between two neighbouring grid nodes at distance h, the value looked up between them is that of a function within M h^2/8 of u, and for fermions the distribution itself is within M h^2/32. Linear interpolation of a table has the usual error bound M h^2/8.", "quantifier": "every grid, table, momentum, mass, statistics and twice differentiable u", "why_tests_cant": "an error bound for all functions and grids; tests compare a few values with a tolerance", "anchors": ["interactions/four_particle/cpp/integral.cpp:distribution_interpolation", "interactions/three_particle/cpp/integral.cpp:distribution_interpolation", "common/__init__.py:interp", "common/__init__.py:linear_interpolation"]}
{"id": "C174", "title": "Running KAWANO", "statement": "kawano.run starts the program chosen by the environment with the table of the folder as INPUT, makes its menu choices and returns what the program writes to OUTPUT; it raises if there is no output. The text returned is that of this run.", "quantifier": "every program, file system, folder and file names", "why_tests_cant": "ranges over all behaviours of an external program, including failing ones", "anchors": ["kawano.py:run", "common/utils.py:getenv"]}
{"id": "C175", "title": "The closed forms of radiation are the integrals over the distribution", "statement": "The energy density, pressure and heat capacity of a particle in the radiation regime are the integrals over its Fermi-Dirac or Bose-Einstein distribution used in the intermediate regime, up to 2 parts in 10^4 for massless particles and up to 1/F + 4 parts in 10^4 at any temperature where the switch (factor F) selects radiation. The factors 7/8 and 3/4 between the statistics follow from an exact relation of the integrals. The number density agrees to one part in a thousand.", "quantifier": "every temperature, number of degrees of freedom, statistics, mass below the temperature, switching factor and cut-off from 20 T on", "why_tests_cant": "equality of closed forms with integrals at all temperatures; tests compare regimes at a few points with loose tolerances", "anchors": ["particles/RadiationParticle.py:density", "particles/RadiationParticle.py:energy_density", "particles/RadiationParticle.py:pressure", "particles/RadiationParticle.py:denominator", "particles/IntermediateParticle.py:energy_density_integrand", "particles/IntermediateParticle.py:Int", "particles/__init__.py:AbstractParticle.regime"]}
{"id": "C176", "title": "What the particle monitors show", "statement": "A relativistic species with the equilibrium distribution of its own temperature is shown as rho/rho_eq = 1 and f/f_eq = 1 by every monitor of radiation, and stays so after decoupling; the effective temperature is the one at which radiation has the energy density of the particle. The energy per mass of a massive species is at least 1, its deviation curve vanishes exactly in equilibrium, the abundances of all species add up to 1 and comoving densities are constant under free streaming.", "quantifier": "every particle, temperature, scale factor, grid, distribution, quadrature rule with nonnegative weights and list of species", "why_tests_cant": "universally quantified over states of the universe; the monitors have no tests", "anchors": ["plotting.py:RadiationParticleMonitor", "plotting.py:EquilibriumRadiationParticleMonitor", "plotting.py:EffectiveTemperatureRadiationPartileMonitor", "plotting.py:MassiveParticleMonitor", "plotting.py:EquilibrationMonitor", "plotting.py:AbundanceMonitor", "plotting.py:DensityAndEnergyMonitor"]}
{"id": "C177", "title": "The logarithmic weight: moments, coefficients and rule", "statement": "For every a > -1 mm_log(N, a) returns the integrals over [0,1] of the monic shifted Legendre polynomials against t^a log(1/t), and rec_jaclog(N, a) the recursion coefficients of that weight, from which gauss makes a rule that is exact below degree 2N.", "quantifier": "all orders N, all real a > -1, given as int or as float, and all polynomials of degree below 2N", "why_tests_cant": "universally quantified over orders, exponents and polynomials; the weight is singular at 0, so that no finite sample of the integrals is exact; no test calls these functions", "anchors": ["common/orthopoly.py:mm_log", "common/orthopoly.py:mod_chebyshev", "common/orthopoly.py:rec_jaclog", "common/orthopoly.py:gauss"]}
{"id": "C178", "title": "Three-body decays into massive particles proceed at the textbook rate", "statement": "For a particle at rest that decays in vacuum into three particles of any masses that the decay can produce, integrate() returns minus the decay rate over the Hubble rate, where the decay rate is the squared amplitude, bilinear in four-momentum products, integrated over the energies of two products inside the Dalitz region and divided by (2 pi)^3 8 m; the value exists and is unique. With the muon's amplitude and the electron's mass the rate is G_F^2 m^5/(192 pi^3) (1 - 8x + 8x^3 - x^4 - 12 x^2 ln x), x the squared ratio of the masses. For a constant squared amplitude K the value is K times the area of the Dalitz region over (2 pi)^3 32 m^3, times m (aT/a)^3.", "quantifier": "all masses with m1+m2+m3 < m, all lists of matrix elements in any order of the four momenta, all scale factors, units of momentum, Hubble rates and upper integration limits", "why_tests_cant": "The tests compare decay rates only through whole evolutions on finite grids; the phase-space limits, the step functions of the kernel and the conversion of units could each be off by a factor depending on the masses without a test noticing.", "anchors": ["interactions/four_particle/__init__.py:FourParticleIntegral.integrate", "interactions/four_particle/cpp/integral.cpp:integrand_full", "interactions/four_particle/cpp/integral.cpp:in_bounds", "interactions/four_particle/cpp/Ds.cpp:Db1", "interactions/four_particle/cpp/Ds.cpp:Db2"]}
{"id": "C179", "title": "The error of a four-particle collision integral in one step", "statement": "If every quadrature meets the accuracy it is asked for, the change a four-particle collision integral makes to the occupation f in one step differs from the exact one by at most 1% of f (2% for the default kind, which combines two integrals), enlarged by 1.01 times the width of the outer interval because the inner quadrature is given the same absolute tolerance, plus 2.01% of the integral of the modulus. This holds for massless particles, and for the coefficients of f for any particle; with the linear time step the bound is multiplied with aT. A massless particle that is not there yet is created with at most 2.01% error.", "quantifier": "all reactions, matrix elements, kinds, momenta, limits, step sizes, constants, occupations and every result the quadratures are allowed to return", "why_tests_cant": "a test observes the error of one quadrature on one integrand, not the worst one its contract allows", "anchors": ["interactions/four_particle/__init__.py:FourParticleIntegral.integrate", "interactions/four_particle/cpp/integral.cpp:integration", "interactions/four_particle/cpp/integral.cpp:integrand_2nd_integration"]}
{"id": "C180", "title": "The relative tolerance is not the accuracy of the result", "statement": "integrate() is within 1% (or even 50%) of the exact integral. False: the absolute tolerance of the quadratures is 1% divided by the step, so whatever changes the occupation by at most 1% of f in a step may be returned as zero, for every reaction and every kind that gives the coefficient of f; the decay of a muon at rest, integrated with a short step, is an instance.", "quantifier": "all reactions, matrix elements, momenta, scale factors, degrees of freedom and steps", "why_tests_cant": "the Gauss rule is usually far better than its tolerance; that the code does not ask for it is not visible in a run", "anchors": ["interactions/four_particle/__init__.py:FourParticleIntegral.integrate", "interactions/four_particle/cpp/integral.cpp:integration"]}
{"id": "C181", "title": "The tolerance of three-particle collision integrals ignores degrees of freedom", "statement": "The change a three-particle collision integral makes to the occupation in one step is exact to 1% (absolute) or 1% of itself. False: the tolerance is computed before the constant is divided by the degrees of freedom and multiplied with the multiplicity, so the bound is mult/dof (Majorana) or 2 mult/dof per cent; a particle with one degree of freedom that is not Majorana is at 2%. A decay that changes the occupation by less than the tolerance may be returned as zero.", "quantifier": "all reactions, amplitudes, kinds, momenta, scale factors, degrees of freedom, multiplicities and steps", "why_tests_cant": "needs a quadrature that uses up its tolerance", "anchors": ["interactions/three_particle/__init__.py:ThreeParticleIntegral.integrate", "interactions/three_particle/cpp/integral.cpp:integration_3"]}
{"id": "C182", "title": "The computed temperature history is of first order in the step", "statement": "The history of aT computed by evolve() follows the temperature equation with a fifth-order (or at least second-order) error, as the Adams-Bashforth formula suggests. False in both stepping modes: a zero rate is recorded before the first step, which leaves 79/720 of one step in aT for ever, and a logarithmic step moves ln x by ln(1+h) where aT moves by h times its slope, a drift of at least h^2/4 of the slope per step. What does hold: the steps never fail, and over any span the error is at most an explicit constant times h, for every rate that is bounded, Lipschitz along the solution and Lipschitz in aT.", "quantifier": "all temperature equations with such rates, all solutions, initial values, step sizes, numbers of steps, linear and logarithmic stepping", "why_tests_cant": "an order of convergence is a statement about a limit of step sizes; the offset is a fraction of one step and looks like truncation error in any single run", "anchors": ["evolution.py:Universe.evolve", "evolution.py:Universe.make_step", "evolution.py:Universe.integrand", "evolution.py:Universe.save_params", "common/integrators/__init__.py:adams_bashforth_correction", "common/__init__.py:Params.update"]}
{"id": "C183", "title": "The recorded age of the universe", "statement": "The time recorded along a run is the integral of da/(aH), so that in a universe of radiation it is 1/(2H). False: make_step passes to Params.update the energy densities the species had at the start of the step and divides the change of a by the new a, so the recorded density and H belong to the temperature of the row before and the clock is slow. In a universe of radiation every elapsed time is exactly 2/((1+dy)(2+dy)) of the true one with logarithmic steps, 7 per cent short for dy = 0.05. What holds in general: whenever the density falls with a, but not faster than a^-4, the recorded time never runs ahead of the true one and the true elapsed time is at most (1+r)^3 times the recorded one, r being the first relative step.", "quantifier": "all histories of the density with these monotonicities, all increments of aT, initial temperatures, step sizes, numbers of steps and both stepping modes; all sets of massless species", "why_tests_cant": "the deficit is a fixed fraction of the elapsed time and shrinks only with the step; a run has no reference clock to compare with", "anchors": ["common/__init__.py:Params.update", "common/__init__.py:Params.init_time", "evolution.py:Universe.evolve", "evolution.py:Universe.make_step", "evolution.py:Universe.total_energy_density", "particles/__init__.py:AbstractParticle.populate_methods"]}
{"id": "C184", "title": "The expansion rate passed to KAWANO", "statement": "The density, the expansion rate and dT/dt in a row of the KAWANO table are those of the universe at the temperature in the same row. False: they belong to the step before. In a universe of radiation with logarithmic steps the density is (1+dy)^4, H and dT/dt are (1+dy)^2 times the right value, 10 per cent too large for dy = 0.05. In general, when the density falls with a but not faster than a^-4, density and rate are never too small and too large by at most (1+r)^4 and (1+r)^2, r being the first relative step.", "quantifier": "all histories of the density with these monotonicities, all increments of aT, temperatures, steps and numbers of steps, both stepping modes; all sets of massless species", "why_tests_cant": "the columns are consistent with each other (Friedmann holds), and only comparison with a density recomputed at the temperature of the row shows the shift", "anchors": ["evolution.py:Universe.save", "evolution.py:Universe.make_step", "common/__init__.py:Params.update", "particles/__init__.py:AbstractParticle.populate_methods"]}
{"id": "C185", "title": "Error estimate of the trapezoidal quadratures", "statement": "For a convex integrand the result of either trapezoidal quadrature is above the integral by at most the returned error (which is negative), and for a concave one below it by at most the returned error, whether or not the quadrature converged; with the status of success of the repeated halving the result is within the absolute or the relative tolerance of the integral.", "quantifier": "all integrable convex or concave integrands, intervals, tolerances, limits and depths of subdivision", "why_tests_cant": "a test integrates a few functions; that the difference of two sums bounds the error of the finer one holds for a class of functions and fails outside of it", "anchors": ["interactions/four_particle/cpp/trapezoidal.cpp:trapezium", "interactions/four_particle/cpp/trapezoidal.cpp:adaptive_trapezium_helper", "interactions/four_particle/cpp/trapezoidal.cpp:adaptive_trapezium", "interactions/four_particle/cpp/trapezoidal.cpp:nonadaptive_trapezium"]}
{"id": "C186", "title": "Meaning of success of the repeated halving", "statement": "When the repeated halving reports success its result is within the tolerance of the integral. False: an integrand oscillating with the nodes is integrated to 0 with error 0 at any tolerance though its integral is 1. What holds: the result is the trapezoidal sum of 19 2^k panels, for the first k > 0 at which halving changed it within the tolerances, or else the largest with at most `limit` nodes, whose number of nodes is then returned; with a limit below 39 no result is stored at all and the caller reads an uninitialised variable.", "quantifier": "all integrands, intervals, tolerances and limits", "why_tests_cant": "success on smooth test functions says nothing about the ones that resonate with the nodes, and an uninitialised result is often zero", "anchors": ["interactions/four_particle/cpp/trapezoidal.cpp:nonadaptive_trapezium", "interactions/four_particle/cpp/trapezoidal.cpp:adaptive_trapezium", "interactions/four_particle/cpp/trapezoidal.cpp:integrand_2nd_integration"]}
{"id": "C187", "title": "The cache of the trapezoidal quadratures", "statement": "The cache never changes a result, no abscissa is evaluated twice, and the repeated halving calls the integrand exactly once at every node of the finest sum, so that the refinements cost no more than the finest sum alone. The same holds when every operation is rounded to a binary float, although the abscissae of different refinements are computed with different steps.", "quantifier": "all integrands, nonempty intervals, tolerances, limits, numbers of nodes and earlier contents of the cache", "why_tests_cant": "the cache is invisible in results; counting calls on an example does not show that the nodes of every refinement contain the earlier ones", "anchors": ["interactions/four_particle/cpp/trapezoidal.cpp:trapezium", "interactions/four_particle/cpp/trapezoidal.cpp:nonadaptive_trapezium"]}
{"id": "C188", "title": "Orders and brackets of the sampled rules", "statement": "With any positive number of steps the Simpson rule integrates cubic polynomials exactly, the trapezoidal and the middle rectangle rules linear functions, the left and right rectangles constants, and the Simpson rule is off by exactly (b - a)^5 / (120 steps^4) for x^4; for a nondecreasing integrand the integral lies between the left and right rectangles, which differ by h (f(b) - f(a)), and for a convex one between the middle rectangles and the trapezoids; Simpson's rule is the extrapolation (4 T(h/2) - T(h)) / 3 of the trapezoidal sums.", "quantifier": "all coefficients, integrable integrands, intervals and positive numbers of steps", "why_tests_cant": "exactness for a few polynomials and step numbers does not give the order for all of them", "anchors": ["interactions/four_particle/cpp/simpson.cpp:integrate_sampled", "interactions/four_particle/cpp/simpson.cpp:rectangular", "interactions/four_particle/cpp/simpson.cpp:trapezium", "interactions/four_particle/cpp/simpson.cpp:simpson"]}
{"id": "C189", "title": "The randomised units are consistent", "statement": "For every choice of the five base units, each of the 195 derived units and constants of numericalunits has its SI value times the base units in the powers of its dimension, every prefixed name carries the factor of its SI prefix, and nothing else is exported. Therefore any formula in the units that passes dimensional analysis scales with its dimension, and one without a dimension has the same value for all base units; conversely a nonzero formula with a dimension changes for some base units. reset_units never fails, leaves the random generator as it found it, repeats its values for the same seed, draws base units within the given powers of ten, and gives the SI values for 'SI'.", "quantifier": "all positive base units, all formulas built from numbers, units, sums, products, quotients and powers, all generators, seeds and ranges", "why_tests_cant": "a wrong exponent shows only in formulas that use the unit; a test compares single conversions in one random choice of units", "anchors": ["numericalunits.py:reset_units", "numericalunits.py:set_derived_units_and_constants"]}
{"id": "C190", "title": "The physical constants of numericalunits agree with each other", "statement": "In every choice of base units: c0^2 mu0 eps0 = 1, lbf = lbm g0, eV = e V, 2 pi hbar = h, the light-year is the way of light in 365.25 days, and the ohm, farad, henry, weber and tesla fit together exactly; NA u = g, the flux quantum h/2e, the Josephson and von Klitzing constants, the Rydberg energy and constant and the ratio of the magnetons hold to 1e-8, the fine-structure constant, Bohr radius and Bohr magneton to 1e-4 and the Stefan-Boltzmann constant to 2e-4. nu.year is the sidereal year, so that light travels more than nu.lightyear in it, by 17.4 to 17.5 parts in a million.", "quantifier": "all positive base units", "why_tests_cant": "no test compares the constants; the deviation of the year is too small to notice", "anchors": ["numericalunits.py:set_derived_units_and_constants"]}
