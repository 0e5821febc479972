{"id": "C01", "title": "Accelerated and plain hyper-Laplacian return the same bits", "statement": "For every 2-D array, spacing and order N >= 0, the Numba periodic_laplace_N (pad once by N, then shrink N times) returns exactly the array the NumPy periodic_laplace_N (pad by one, N times) returns, whatever the floating-point arithmetic does, including when N exceeds the grid size. With no order of evaluation changed, results are equal bit for bit.", "quantifier": "every grid shape, every field (NaN and inf included), every dx, every N, every arithmetic", "why_tests_cant": "The test compares 32x32 random arrays at N=2 and N=3 only; pad-wider-than-grid and other N are unsampled, and equality is a claim over all inputs.", "anchors": ["src/hw2d/gradients/numpy_gradients.py:periodic_laplace_N", "src/hw2d/gradients/numpy_gradients.py:laplace", "src/hw2d/gradients/numba_gradients.py:periodic_laplace_N", "src/hw2d/gradients/numba_gradients.py:laplace_N"]}
{"id": "C02", "title": "Accelerated and plain gradient agree; negative axes mean the same as positive ones", "statement": "For every 2-D array, the Numba and NumPy periodic_gradient return the same bits for axis 0 and axis 1, and NumPy axis=-2 / axis=-1 return the same bits as axis=0 / axis=1. On 2-D input any other axis yields no array (None) from the plain version for axis >= 2.", "quantifier": "every grid shape, field, dx and arithmetic", "why_tests_cant": "Sampled on one size and one axis only.", "anchors": ["src/hw2d/gradients/numpy_gradients.py:periodic_gradient", "src/hw2d/gradients/numpy_gradients.py:gradient", "src/hw2d/gradients/numba_gradients.py:periodic_gradient", "src/hw2d/gradients/numba_gradients.py:gradient"]}
{"id": "C03", "title": "Gradient and Laplacian: linear, mean-free, constant-annihilating", "statement": "periodic_gradient and periodic_laplace are linear in the field, return the zero field on a constant field, and the sum of the result over the grid is exactly zero for every field.", "quantifier": "every grid size >= 1 per axis, every real field, every dx != 0", "why_tests_cant": "Holds for all fields; a test samples a few.", "anchors": ["src/hw2d/gradients/numpy_gradients.py:periodic_gradient", "src/hw2d/gradients/numpy_gradients.py:periodic_laplace"]}
{"id": "C04", "title": "Summation by parts and ellipticity", "statement": "For all fields f,g: <f, grad g> = -<grad f, g>; <f, lap g> = <lap f, g>; <f, lap f> = -(sum of squared forward differences)/dx^2 <= 0, with equality exactly when f is constant.", "quantifier": "every grid, every pair of real fields, every dx != 0", "why_tests_cant": "Quantifies over pairs of fields of every size.", "anchors": ["src/hw2d/gradients/numpy_gradients.py:periodic_gradient", "src/hw2d/gradients/numpy_gradients.py:periodic_laplace"]}
{"id": "C05", "title": "Hyper-diffusion always dissipates", "statement": "With the sign HW.__init__ gives nu, the diffusion term never increases the squared norm: for every order N >= 0 and nu >= 0, <f, D f> <= 0 where D f is the array hw.diffuse scaled by the stored nu; for N >= 1 and nu > 0 it is zero exactly on constant fields.", "quantifier": "every N, every nu >= 0, every grid and field", "why_tests_cant": "The sign convention alternates with N; tests run only N=3.", "anchors": ["src/hw2d/model.py:HW.__init__", "src/hw2d/model.py:HW.diffuse", "src/hw2d/model.py:hw2d_gradient", "src/hw2d/gradients/numpy_gradients.py:periodic_laplace_N"]}
{"id": "C06", "title": "Batched evaluation equals frame-by-frame evaluation", "statement": "periodic_laplace, periodic_gradient with axis -1/-2 and the means used by the properties act on an array with any leading axes exactly as on each 2-D frame separately.", "quantifier": "every number and size of leading axes, every frame content, every arithmetic", "why_tests_cant": "The test stacks one identical frame ten times, so any mixing of frames would go unseen.", "anchors": ["src/hw2d/gradients/numpy_gradients.py:periodic_laplace", "src/hw2d/gradients/numpy_gradients.py:periodic_gradient", "src/hw2d/physical_properties/numpy_properties.py:get_gamma_n", "src/hw2d/physical_properties/numpy_properties.py:get_energy"]}
{"id": "C07", "title": "All Arakawa implementations agree", "statement": "The vectorised NumPy, vectorised Numba and single-stencil Numba brackets return the same bits for every arithmetic; the loop version and the three-stencil Numba version equal them in exact arithmetic for every dx != 0.", "quantifier": "every grid, both fields, every dx", "why_tests_cant": "One random 128x128 sample with psi = zeta.T.", "anchors": ["src/hw2d/poisson_bracket/numpy_arakawa.py:periodic_arakawa", "src/hw2d/poisson_bracket/numpy_arakawa.py:periodic_arakawa_vec", "src/hw2d/poisson_bracket/numba_arakawa.py:periodic_arakawa", "src/hw2d/poisson_bracket/numba_arakawa.py:periodic_arakawa_stencil", "src/hw2d/poisson_bracket/numba_arakawa.py:periodic_arakawa_vec"]}
{"id": "C08", "title": "The bracket is bilinear, antisymmetric and kills constants", "statement": "J(a,b) = -J(b,a), J is linear in each argument, J(a,a)=0 and J(a,constant)=0 at every grid point.", "quantifier": "every grid, every pair of fields, every dx != 0", "why_tests_cant": "Algebraic law over all fields.", "anchors": ["src/hw2d/poisson_bracket/numpy_arakawa.py:periodic_arakawa_vec"]}
{"id": "C09", "title": "The bracket conserves the mean, energy and enstrophy exactly", "statement": "Over the periodic grid sum J(a,b) = 0, sum a*J(a,b) = 0 and sum b*J(a,b) = 0, which is the reason the scheme is used.", "quantifier": "every grid, every pair of fields, every dx != 0", "why_tests_cant": "The conservation test is a loose tolerance on one reference state.", "anchors": ["src/hw2d/poisson_bracket/numpy_arakawa.py:periodic_arakawa_vec", "README.md"]}
{"id": "C10", "title": "The bracket has the orientation and scale of d_x a d_y b - d_y a d_x b", "statement": "On (non-wrapped) sampled affine fields the unpadded arakawa_vec equals a_x b_y - a_y b_x exactly; more generally it is exact for every pair of polynomials in which one factor is affine and the other quadratic.", "quantifier": "all coefficients, all grid offsets, every dx != 0", "why_tests_cant": "A sign or axis swap cancels in the tests that compare implementations with each other.", "anchors": ["src/hw2d/poisson_bracket/numpy_arakawa.py:arakawa_vec", "src/hw2d/poisson_bracket/numpy_arakawa.py:jpp", "src/hw2d/poisson_bracket/numpy_arakawa.py:jpx", "src/hw2d/poisson_bracket/numpy_arakawa.py:jxp"]}
{"id": "C11", "title": "PhiML bracket agrees with the NumPy bracket", "statement": "A user swapping in the PhiML bracket expects the same sign. The faithful model refutes it: with axes named (y, x) the PhiML periodic_arakawa_vec returns exactly the negative of the NumPy one.", "quantifier": "every grid, every pair of fields", "why_tests_cant": "No test imports the PhiML module; the sign holds for all inputs.", "anchors": ["src/hw2d/poisson_bracket/phiml_arakawa.py:arakawa_vec", "src/hw2d/poisson_bracket/numpy_arakawa.py:arakawa_vec"]}
{"id": "C12", "title": "The Fourier solver really inverts the spectral Laplacian", "statement": "For every vorticity field, the field phi returned by get_phi satisfies: the discrete spectral Laplacian of phi (multiplier -(2 pi k/n)^2/dx^2 in both axes) equals omega minus its mean, the mean of phi is zero, and phi is the only real field with both properties.", "quantifier": "every grid shape, every real omega, every dx != 0", "why_tests_cant": "test_poisson only prints errors; it asserts nothing about the inverse.", "anchors": ["src/hw2d/model.py:HW.get_phi", "src/hw2d/poisson_solvers/numpy_fourier_poisson.py:fourier_poisson_double"]}
{"id": "C13", "title": "Numba and NumPy Poisson solvers agree on what the model feeds them", "statement": "The two fourier_poisson_double differ for arbitrary input by exactly mean(input)*dx^2/1e14 in every cell (times=1), hence they agree in get_phi, which centres its input.", "quantifier": "every grid with at most 65536 points per axis, every field, every dx", "why_tests_cant": "Compared once at 32x32 with tolerance 1e-7.", "anchors": ["src/hw2d/poisson_solvers/numba_fourier_poisson.py:fourier_poisson_double", "src/hw2d/poisson_solvers/numba_fourier_poisson.py:core_computation", "src/hw2d/poisson_solvers/numpy_fourier_poisson.py:fourier_poisson_double", "src/hw2d/model.py:HW.get_phi"]}
{"id": "C14", "title": "Numba frequency table equals numpy.fft.fftfreq up to the int16 limit", "statement": "custom_fftfreq(n) equals numpy.fft.fftfreq(n) for every 1 <= n <= 65536 and differs from it for every n > 65536 because of int16 wrap-around.", "quantifier": "all n", "why_tests_cant": "Grids beyond 65536 cannot be run in a test.", "anchors": ["src/hw2d/poisson_solvers/numba_fourier_poisson.py:custom_fftfreq", "src/hw2d/poisson_solvers/numba_fourier_poisson.py:fftfreq_sq"]}
{"id": "C15", "title": "The Poisson solve is linear, real, symmetric, negative and shift-equivariant", "statement": "fourier_poisson_double is linear, discards a zero imaginary part (nothing is lost by np.real), satisfies <f,S g> = <S f,g>, <f,S f> <= 0, and commutes with periodic translations of the grid.", "quantifier": "every grid, every field, every shift, every dx != 0", "why_tests_cant": "Quantifies over all fields and shifts.", "anchors": ["src/hw2d/poisson_solvers/numpy_fourier_poisson.py:fourier_poisson_double"]}
{"id": "C16", "title": "The generic solver fourier_poisson_numpy", "statement": "fourier_poisson_numpy equals fourier_poisson_double on every square grid; on every non-square grid with both sides at least 2 it fails with a broadcasting ValueError although the docstring promises a general solver.", "quantifier": "every square size; every non-square shape", "why_tests_cant": "Tests use a square grid only.", "anchors": ["src/hw2d/poisson_solvers/numpy_fourier_poisson.py:fourier_poisson_numpy", "src/hw2d/poisson_solvers/numpy_fourier_poisson.py:fourier_poisson_double"]}
{"id": "C17", "title": "fourier_laplace is usable and is inverted by the solver", "statement": "A user relies on numpy fourier_laplace returning the spectral Laplacian. The faithful model refutes it: every call raises NameError (times is undefined). The PhiML variant, which uses its parameter N, is inverted by the solver with times=N on mean-free fields.", "quantifier": "every input", "why_tests_cant": "It is imported by a test but never called.", "anchors": ["src/hw2d/gradients/numpy_gradients.py:fourier_laplace", "src/hw2d/gradients/phiml_gradients.py:fourier_laplace", "src/hw2d/poisson_solvers/numpy_fourier_poisson.py:fourier_poisson_double"]}
{"id": "C18", "title": "The time derivative is the Hasegawa-Wakatani right-hand side", "statement": "hw2d_gradient returns, cell by cell, density = c1(phi-n) - pb*J(phi,n) - kappa*d_y phi + nu' lap^N n and omega = c1(phi-n) - pb*J(phi,omega) + nu' lap^N omega with nu' = (-1)^(N+1) nu; skipping a term whose coefficient is zero changes nothing; with zonal=True phi-n is replaced by its deviation from the y-average.", "quantifier": "every grid, state, coefficient set and branch combination", "why_tests_cant": "Tests check tolerances of derived scalars, not the field equations.", "anchors": ["src/hw2d/model.py:hw2d_gradient", "src/hw2d/model.py:HW.gradient_2d", "src/hw2d/model.py:HW.__init__", "src/hw2d/zonal_transform/numpy_zonal_transform.py:zonal_transform"]}
{"id": "C19", "title": "rk4_step is classical RK4 on (density, omega)", "statement": "For every state whose phi is the solution for its omega, rk4_step returns density and omega of the classical Runge-Kutta step of the autonomous system, phi solved from the new omega, age advanced by exactly dt and the same set of keys; so the invariant phi = get_phi(omega) holds after any number of steps.", "quantifier": "every state, parameter set, dt and number of steps", "why_tests_cant": "Invariant over arbitrarily long runs.", "anchors": ["src/hw2d/model.py:HW.rk4_step", "src/hw2d/utils/namespaces.py:Namespace"]}
{"id": "C20", "title": "rk4_step is fourth-order accurate", "statement": "For every state the step, as a polynomial in dt, coincides with the Taylor expansion of the exact solution of the semi-discrete system through dt^4; in the linear regime (bracket coefficient 0) it is exactly the degree-4 exponential polynomial of the linear operator.", "quantifier": "every grid, state, parameter set; coefficients of all orders up to 4", "why_tests_cant": "Order conditions are statements about all right-hand sides.", "anchors": ["src/hw2d/model.py:HW.rk4_step", "src/hw2d/model.py:hw2d_gradient"]}
{"id": "C21", "title": "Mean of density minus vorticity never drifts", "statement": "For N >= 1, mean(density) - mean(omega) is exactly unchanged by every rk4_step and euler_step and hence by any run.", "quantifier": "every state, parameter set, dt and number of steps", "why_tests_cant": "Holds for unbounded numbers of steps.", "anchors": ["src/hw2d/model.py:HW.rk4_step", "src/hw2d/model.py:HW.euler_step", "src/hw2d/model.py:hw2d_gradient"]}
{"id": "C22", "title": "Zonal mode removes the y-average from the coupling", "statement": "zonal_transform has zero y-average in every column, is idempotent and linear; with zonal=True and N >= 1 mean(density) and mean(omega) are each exactly conserved by every step.", "quantifier": "every field, state and number of steps", "why_tests_cant": "No test sets zonal=True.", "anchors": ["src/hw2d/zonal_transform/numpy_zonal_transform.py:zonal_transform", "src/hw2d/model.py:hw2d_gradient"]}
{"id": "C23", "title": "Enstrophy balance of the ideal system", "statement": "With nu=0 and kappa=1 and consistent phi, the rate dU reported by gradient_2d is the exact derivative of get_enstrophy along the returned derivative: U(y + h*dy) = U(y) + h*dU + h^2/2*mean((dn-do)^2) for all h.", "quantifier": "every grid, state, c1, bracket coefficient and h", "why_tests_cant": "The conservation test is a tolerance over three steps of one state.", "anchors": ["src/hw2d/model.py:hw2d_gradient", "src/hw2d/physical_properties/numpy_properties.py:get_enstrophy", "src/hw2d/physical_properties/numpy_properties.py:get_dU_dt", "src/hw2d/physical_properties/numpy_properties.py:get_DU"]}
{"id": "C24", "title": "Energy balance of the ideal system and the sign of the viscous sink", "statement": "With nu=0, kappa=1 and consistent phi the reported dE equals mean(n*dn/dt) - mean(phi*domega/dt), the exact rate of the spectral energy. With nu>0 the reported dE is not that rate: the diffusion contribution enters with the opposite sign, so a user relying on dE as the energy derivative is refuted.", "quantifier": "every state for the ideal statement; a witness for the refutation", "why_tests_cant": "nu is 5e-8 in tests, far below the tolerance, so the sign error is invisible.", "anchors": ["src/hw2d/model.py:hw2d_gradient", "src/hw2d/physical_properties/numpy_properties.py:get_DE", "src/hw2d/physical_properties/numpy_properties.py:get_dE_dt"]}
{"id": "C25", "title": "No preferred origin: stepping commutes with periodic shifts", "statement": "Shifting density, omega and phi periodically by any amounts and then stepping gives the shifted result of stepping first.", "quantifier": "every grid, state, shift, parameter set, dt, number of steps", "why_tests_cant": "Quantifies over all shifts and states.", "anchors": ["src/hw2d/model.py:HW.rk4_step", "src/hw2d/gradients/numpy_gradients.py:periodic_gradient", "src/hw2d/poisson_bracket/numpy_arakawa.py:periodic_arakawa_vec", "src/hw2d/poisson_solvers/numpy_fourier_poisson.py:fourier_poisson_double"]}
{"id": "C26", "title": "Rest state and radial parity symmetry", "statement": "The zero state stays exactly zero forever; reflecting x and negating density, omega and phi commutes with stepping.", "quantifier": "every grid, parameter set, dt, number of steps, state", "why_tests_cant": "Symmetry over all states.", "anchors": ["src/hw2d/model.py:HW.rk4_step", "src/hw2d/model.py:hw2d_gradient"]}
{"id": "C27", "title": "Namespace arithmetic", "statement": "Adding namespaces and scaling by a number act key by key on the left operand's keys and raise KeyError exactly when the right operand misses one. A user relies on a - b being a minus b: refuted, Namespace subtraction returns b - a (and number-subtraction returns number - value).", "quantifier": "every pair of namespaces", "why_tests_cant": "Laws over all key sets; subtraction is untested.", "anchors": ["src/hw2d/utils/namespaces.py:Namespace.__add__", "src/hw2d/utils/namespaces.py:Namespace.__mul__", "src/hw2d/utils/namespaces.py:Namespace.__sub__"]}
{"id": "C28", "title": "Profiling counters are exact", "statement": "After k calls of rk4_step the profiler has counted k full steps, 4k potential solves, 4k gradients, 8k brackets (0 if the coefficient is 0), and 8k (or 12k with conservation testing) diffusions if nu != 0, plus 4k when nu = 0 and conservation testing is on.", "quantifier": "every k, every parameter set", "why_tests_cant": "Count over unbounded histories.", "anchors": ["src/hw2d/model.py:HW.log", "src/hw2d/model.py:HW.rk4_step", "src/hw2d/model.py:hw2d_gradient"]}
{"id": "C29", "title": "Sign and zero set of the diagnostics", "statement": "gamma_c >= 0 for c1 >= 0, energy >= 0, enstrophy >= 0; enstrophy is 0 exactly when density = omega, energy is 0 exactly when the density vanishes and the central-difference gradient of phi vanishes.", "quantifier": "every frame", "why_tests_cant": "Inequalities over all fields.", "anchors": ["src/hw2d/physical_properties/numpy_properties.py:get_gamma_c", "src/hw2d/physical_properties/numpy_properties.py:get_energy", "src/hw2d/physical_properties/numpy_properties.py:get_enstrophy"]}
{"id": "C30", "title": "Flux invariances", "statement": "gamma_n is unchanged when a constant is added to density or to the potential, gamma_n(f,f)=0 for every field, and it is bilinear; gamma_c is unchanged when the same field is added to density and potential.", "quantifier": "every frame, every constant", "why_tests_cant": "Laws over all fields.", "anchors": ["src/hw2d/physical_properties/numpy_properties.py:get_gamma_n", "src/hw2d/physical_properties/numpy_properties.py:get_gamma_c"]}
{"id": "C31", "title": "Spectral thermal energy equals the grid thermal energy", "statement": "get_energy_N_spectrally(n) = mean(n^2)/2 for every frame (Parseval).", "quantifier": "every grid shape and frame", "why_tests_cant": "Checked on a single frame.", "anchors": ["src/hw2d/physical_properties/numpy_properties.py:get_energy_N_spectrally", "src/hw2d/physical_properties/numpy_properties.py:get_energy_N_ky"]}
{"id": "C32", "title": "Spectral particle flux", "statement": "On square grids with an even number of points get_gamma_n_spectrally equals -mean(n * d_y phi) with the spectral derivative; on odd grids it does not (the highest mode is dropped and the mean is over the wrong count); on non-square grids it raises ValueError.", "quantifier": "every square even grid and frame; witnesses for the failures", "why_tests_cant": "Checked on a single even square frame.", "anchors": ["src/hw2d/physical_properties/numpy_properties.py:get_gamma_n_ky", "src/hw2d/physical_properties/numpy_properties.py:get_gamma_n_spectrally"]}
{"id": "C33", "title": "Kinetic energies are ordered", "statement": "get_energy <= get_energy_N_spectrally + get_energy_V_spectrally for every frame: central differences never overestimate the spectral kinetic energy.", "quantifier": "every square grid, frame and dx > 0", "why_tests_cant": "Inequality over all fields.", "anchors": ["src/hw2d/physical_properties/numpy_properties.py:get_energy", "src/hw2d/physical_properties/numpy_properties.py:get_energy_V_spectrally", "src/hw2d/physical_properties/numpy_properties.py:get_energy_N_spectrally"]}
{"id": "C34", "title": "The two enstrophies agree on consistent frames", "statement": "get_enstrophy_phi(n,phi) = get_enstrophy(n, periodic_laplace(phi)) for every frame.", "quantifier": "every frame, dx != 0", "why_tests_cant": "All fields.", "anchors": ["src/hw2d/physical_properties/numpy_properties.py:get_enstrophy_phi", "src/hw2d/physical_properties/numpy_properties.py:get_enstrophy"]}
{"id": "C35", "title": "Buffered writing loses, duplicates and reorders nothing", "statement": "For every sequence of saved frames and every buffer length >= 1, saving each frame and flushing the remainder leaves every dataset equal to its previous content followed by the saved frames (as float32) in order; the buffer index always stays below the buffer length.", "quantifier": "every sequence of saves, every buffer length, every initial file", "why_tests_cant": "Unbounded histories.", "anchors": ["src/hw2d/utils/io.py:save_to_buffered_h5", "src/hw2d/utils/io.py:append_h5", "src/hw2d/run.py:run"]}
{"id": "C36", "title": "A crash loses fewer than one buffer of frames", "statement": "If the process stops between saves, the file holds exactly the first B*floor(k/B) of the k saved frames, all datasets have equal length, and fewer than B frames are lost. If it stops inside a flush, datasets may have different lengths (witness), differing by at most one flush.", "quantifier": "every history, every crash point between the modelled file operations", "why_tests_cant": "Crash points are not testable exhaustively.", "anchors": ["src/hw2d/utils/io.py:append_h5", "src/hw2d/utils/io.py:save_to_buffered_h5", "src/hw2d/utils/io.py:continue_h5_file"]}
{"id": "C37", "title": "The stored last state belongs to the last recorded time", "statement": "A user continuing a down-sampled run relies on state_* being the state at time[-1]. It is so exactly when the number of recorded frames is a multiple of the buffer length; otherwise (final partial flush) state_* is older than time[-1], or still zero, which is the refuting witness.", "quantifier": "every number of frames and buffer length", "why_tests_cant": "test_continue uses sizes where the mismatch is not asserted.", "anchors": ["src/hw2d/utils/io.py:save_to_buffered_h5", "src/hw2d/utils/io.py:update_last_state", "src/hw2d/utils/io.py:continue_h5_file", "src/hw2d/run.py:run"]}
{"id": "C38", "title": "Recorded times increase across continuation", "statement": "In run2 the recorded times of a continued run continue from the stored age in steps of step_size*snaps; in run they restart at step_size (witness), so time is not monotone and a second continuation starts from the wrong age.", "quantifier": "every end time, step size, snaps and stored age", "why_tests_cant": "The continue test checks only the number of frames.", "anchors": ["src/hw2d/run.py:run", "src/hw2d/run2.py:run", "src/hw2d/utils/io.py:continue_h5_file"]}
{"id": "C39", "title": "How many frames a fresh run records, and when", "statement": "A fresh run with recording from time zero writes 1 + floor(steps/snaps) frames, frame k carrying time k*snaps*step_size; with recording_start_time > 0 it writes exactly the snapshot iterations whose time is at or after it.", "quantifier": "every step count, snaps >= 1, start time, buffer length", "why_tests_cant": "Arithmetic over all parameter combinations.", "anchors": ["src/hw2d/run.py:run", "src/hw2d/utils/io.py:get_save_params"]}
{"id": "C40", "title": "The first recorded potential is consistent with the first vorticity", "statement": "A user relies on every recorded frame having phi = solve(omega). All frames but the first do; frame 0 stores the raw random potential (refuted for frame 0).", "quantifier": "every initialisation, every frame index", "why_tests_cant": "No test inspects frame 0.", "anchors": ["src/hw2d/run.py:run", "src/hw2d/run2.py:run"]}
{"id": "C41", "title": "An existing file is never destroyed unless asked", "statement": "With force_recompute false and continue_file false, an existing output file is returned byte-for-byte unchanged and nothing is simulated; with continue_file true previously recorded frames stay a prefix of the file.", "quantifier": "every existing file and parameter set", "why_tests_cant": "All file contents.", "anchors": ["src/hw2d/run.py:run", "src/hw2d/run2.py:run", "src/hw2d/utils/io.py:continue_h5_file"]}
{"id": "C42", "title": "Continuing keeps the physics of the file", "statement": "A continued run takes dx, N, c1, nu, k0 and the coefficients of the equations from the file; the values passed to the call and the initial fields are ignored. Two exceptions, each refuted with a witness: the zonal flag is stored but not read back (a run2 file made with zonal=True continues with zonal=False), and the steps use the grid spacing computed from the new call's k0 and grid_pts, not the stored one.", "quantifier": "every stored parameter set", "why_tests_cant": "No test combines zonal and continue.", "anchors": ["src/hw2d/utils/io.py:continue_h5_file", "src/hw2d/run2.py:run", "src/hw2d/model.py:HW.__init__"]}
{"id": "C43", "title": "Batch size does not change computed properties", "statement": "calculate_properties stores, for every batch size >= 1, the same value for every frame: the property function applied to that frame; with force_recompute false existing property datasets are left untouched.", "quantifier": "every number of frames, every batch size, every selection", "why_tests_cant": "All batch sizes and lengths.", "anchors": ["src/hw2d/utils/run_properties.py:calculate_properties", "src/hw2d/utils/run_properties.py:add_data"]}
{"id": "C44", "title": "run needs an output path", "statement": "A user may expect output_path='' to run without saving. Refuted: run and run2 always raise before simulating because save_params is unbound.", "quantifier": "every parameter set with empty output_path", "why_tests_cant": "No test uses an empty path.", "anchors": ["src/hw2d/run.py:run", "src/hw2d/run2.py:run"]}
{"id": "C45", "title": "run reaches the end time and never passes it; run2 stops at the end time up to rounding", "statement": "In exact arithmetic run performs n steps with n*step <= end-start < (n+1)*step; run2 performs the least number of steps whose time, rounded to four digits, is at least end_time. In binary64 arithmetic run can stop a whole step early (end_time=0.3, step_size=0.1 makes 2 steps).", "quantifier": "every start, end, step > 0; a binary64 witness", "why_tests_cant": "Needs all combinations; the float witness is a corner case.", "anchors": ["src/hw2d/run.py:run", "src/hw2d/run2.py:run"]}
{"id": "C46", "title": "run2 retries a failing step forever", "statement": "A user relies on an error in a step surfacing. Refuted: when a step raises, run2 retries it with unchanged arguments, so it makes no progress for any number of attempts.", "quantifier": "every number of retries", "why_tests_cant": "Non-termination cannot be observed by a test.", "anchors": ["src/hw2d/run2.py:run"]}
{"id": "C47", "title": "Down-sampling by pair means preserves the mean", "statement": "mean_downsample2x halves every axis but the first and preserves the mean over those axes for even sizes, and raises ValueError on an odd axis of five or more entries; an axis of three entries is silently broadcast and its mean changes (refuted docstring). skip_downsampleNx keeps exactly the entries whose indices are multiples of the factor.", "quantifier": "every rank and even sizes for the mean, every (t, y, x) shape and content otherwise", "why_tests_cant": "All shapes.", "anchors": ["src/hw2d/utils/downsample.py:mean_downsample2x", "src/hw2d/utils/downsample.py:skip_downsampleNx"]}
{"id": "C48", "title": "median_downsampleNx down-samples", "statement": "Refuted: the function returns its input unchanged for every factor.", "quantifier": "every array and factor", "why_tests_cant": "Untested; holds for all inputs.", "anchors": ["src/hw2d/utils/downsample.py:median_downsampleNx"]}
{"id": "C49", "title": "Saved frame shape matches the down-sampled field", "statement": "The shape reserved in the file and buffer for a frame equals the shape fourier_downsample produces, for every grid and factor, so saving never fails on shape.", "quantifier": "every grid size and real factor (ties included)", "why_tests_cant": "Rounding ties are corner cases.", "anchors": ["src/hw2d/utils/downsample.py:fourier_downsample", "src/hw2d/run.py:run"]}
{"id": "C50", "title": "Fourier noise is normalised", "statement": "For every random draw whose array is not constant, get_fft_noise returns a field with mean exactly 0 and standard deviation exactly 1; the weight-mask assertion holds whenever min_frequency <= max_frequency (or only one is given).", "quantifier": "every draw, resolution and frequency band", "why_tests_cant": "Checked once, within 1e-5.", "anchors": ["src/hw2d/initializations/fourier_noise.py:get_fft_noise"]}
{"id": "C51", "title": "get_2d_sine", "statement": "Values lie in [-1,1] and on square grids entry (i,j) is sin(2 pi L j/n + 1) sin(2 pi L i/n + 1); on non-square grids the returned shape is the transpose of grid_size (refuted docstring).", "quantifier": "every grid size and L", "why_tests_cant": "Only square sizes are tested.", "anchors": ["src/hw2d/initializations/sine.py:get_2d_sine"]}
{"id": "C52", "title": "Uniform time axis has one entry per value", "statement": "get_uniform_x returns exactly len(values) times t0 + k*dt in exact arithmetic.", "quantifier": "every length, dt > 0 and t0", "why_tests_cant": "All lengths.", "anchors": ["src/hw2d/utils/plot/timetrace.py:get_uniform_x"]}
{"id": "C53", "title": "Zero line decision", "statement": "A user relies on is_zero_included being true whenever zero lies between the smallest and largest value. Refuted: it is false when the maximum is positive but below frac times the range.", "quantifier": "every data set", "why_tests_cant": "Corner of the data space.", "anchors": ["src/hw2d/utils/plot/timetrace.py:is_zero_included"]}
{"id": "C54", "title": "Movie pictures show the recorded rows", "statement": "For a file recorded from time 0 with fixed steps, the movie shows exactly the rows 0, s, 2s, ... of the file, each with the time it was recorded at. For a file recorded from a later time (m rows later) it starts with row n-m and wraps around, and every title shows too early a time (refuted); for m > n it fails with an IndexError. With adaptive steps picture k shows the first row not earlier than k times the time per picture, valid rows only; the start time argument is ignored (refuted) and an end time beyond the recording fails.", "quantifier": "every file, length, spacing, speed and frame rate", "why_tests_cant": "All file lengths and start times.", "anchors": ["src/hw2d/utils/plot/movie.py:create_movie_equally_spaced", "src/hw2d/utils/plot/movie.py:create_movie_unequal_spaced_fine", "src/hw2d/utils/plot/movie.py:time_to_length"]}
{"id": "C55", "title": "Printing parameters", "statement": "format_print_dict prints every number of the dictionary exactly once, in order, in aligned columns, using as many columns as fit; lines are shorter than the limit if the values fit their width; it prints nothing exactly when one entry alone does not fit. Texts are not skipped but raise a ValueError (refuted), and so does a dictionary without numbers; a value such as -1.2e-05 makes a line exceed the limit (refuted).", "quantifier": "every dictionary, format, width and separators", "why_tests_cant": "All dictionaries and widths.", "anchors": ["src/hw2d/utils/helpers.py:format_print_dict"]}
{"id": "C56", "title": "PhiML fourier_laplace with N > 1 is the N-fold spectral Laplacian", "statement": "A user relies on fourier_laplace(grid, dx, N) being N applications of fourier_laplace(grid, dx, 1). The faithful model refutes it: the result is dx^(2(N-1)) times the N-fold spectral Laplacian, because dx**2 is divided out only once.", "quantifier": "every grid, every field, every dx != 0, every N >= 1", "why_tests_cant": "No test calls it with N > 1.", "anchors": ["src/hw2d/gradients/phiml_gradients.py:fourier_laplace"]}
{"id": "C57", "title": "The numpy and numba code paths simulate the same physics", "statement": "In exact arithmetic the HW object built from the numpy schemes and the one built from the numba schemes produce identical density, omega, phi and age after any number of rk4_step or euler_step calls (axes up to 65536 cells).", "quantifier": "every state, parameter set, dt, number of steps", "why_tests_cant": "Needs equality over all states and step counts; a test compares a few steps within a tolerance.", "anchors": ["src/hw2d/model.py:34-52", "src/hw2d/model.py:200-203"]}
{"id": "C58", "title": "Reported enstrophy rate is wrong with viscosity", "statement": "A user relies on dU being the time derivative of the generalised enstrophy. Refuted for nu>0: the diffusion contribution in get_dU_dt uses phi where omega belongs and subtracts it, so dU can be positive while the enstrophy falls.", "quantifier": "a witness state", "why_tests_cant": "Every test state with nu=0 agrees; only the algebra shows what the term should be.", "anchors": ["src/hw2d/model.py:150-166", "src/hw2d/physical_properties/numpy_properties.py"]}
{"id": "C59", "title": "Reported energy rate is wrong with zonal coupling", "statement": "With zonal=True the coupling acts on the deviation from the y-average, but the reported dE still subtracts c1*mean((n-phi)^2). Refuted: a state with zero energy rate and reported dE = -1.", "quantifier": "a witness state", "why_tests_cant": "Needs the discrete energy identity of the modified coupling.", "anchors": ["src/hw2d/model.py:150-166"]}
{"id": "C60", "title": "Reported rates ignore the gradient coefficient kappa", "statement": "dE and dU use the source term Gamma_n with coefficient 1 whatever kappa is. Refuted: with all coefficients zero nothing changes in time, yet dE = dU = 1/2 is reported.", "quantifier": "a witness state", "why_tests_cant": "Default kappa=1 hides it.", "anchors": ["src/hw2d/model.py:150-166"]}
{"id": "C61", "title": "Phase-shift spectrum", "statement": "get_delta_ky returns, per wavenumber, the mean over kx of the argument of conj(n_hat) p_hat: 0 for p a positive multiple of n, exactly 2 pi k s/ny (wrapped) for p the density shifted by s cells in y, always within [-pi, pi]. For a single frame the number of rows follows nx instead of ny (refuted).", "quantifier": "every grid, frame, factor and shift", "why_tests_cant": "All fields and shifts.", "anchors": ["src/hw2d/physical_properties/numpy_properties.py:get_delta_ky"]}
{"id": "C62", "title": "A file of one driver can be continued with the other", "statement": "A user relies on run and run2 producing interchangeable files. Refuted in both directions: run2 with properties fails with KeyError on the first flush of a file written by run, leaving fields and times longer than the properties; run continuing a run2 file leaves the fullres_ datasets shorter than the fields.", "quantifier": "witness files, complete executions of both drivers", "why_tests_cant": "The two drivers are tested separately; the failure depends on which datasets exist and on the order of appends inside a flush.", "anchors": ["src/hw2d/run2.py:run", "src/hw2d/utils/io.py:append_h5", "src/hw2d/utils/io.py:create_appendable_h5"]}
{"id": "C63", "title": "The progress bar of run2 shows the chosen property", "statement": "Refuted: run2 looks up show_property in the saved values under its own name while they are stored as fullres_<name>, so the displayed value is always 0.", "quantifier": "every state, time, property selection and show_property that is not a field name", "why_tests_cant": "Output of the progress bar is not inspected and a value of 0 is plausible for many properties.", "anchors": ["src/hw2d/run2.py:run"]}
{"id": "C64", "title": "A finished run2 has written every recorded frame", "statement": "run2 flushes the remaining buffer only if the final time exceeds recording_start_time; a finished run has all recorded frames in that case and otherwise exactly those of the complete flushes. So end_time = recording_start_time = 0 loses the initial frame (run keeps it) - refuted.", "quantifier": "every fresh run2: parameters, trajectory, buffer length, number of frames", "why_tests_cant": "Needs all combinations of end time, start of recording and buffer length.", "anchors": ["src/hw2d/run2.py:run", "src/hw2d/utils/io.py:append_h5"]}
{"id": "C65", "title": "adaptive_step_size only changes rounding", "statement": "With adaptive_step_size the time is start + sum of the used steps instead of start + count*step; in exact arithmetic the recorded times are equal, the step size never adapts.", "quantifier": "every start time, step and number of steps", "why_tests_cant": "Concerns every number of steps; floating-point runs differ in rounding.", "anchors": ["src/hw2d/run2.py:run"]}
{"id": "C66", "title": "A file left by a crash can be continued consistently", "statement": "A user relies on continuing after a crash restoring one consistent state. Refuted: after a crash between append_h5 and update_last_state the age is that of the new frames and the state that of the old ones; after a crash inside append_h5 the datasets have different lengths and stay misaligned for ever.", "quantifier": "witness crash points of complete executions", "why_tests_cant": "The outcome depends on the file operation at which the process is killed.", "anchors": ["src/hw2d/utils/io.py:save_to_buffered_h5", "src/hw2d/utils/io.py:append_h5", "src/hw2d/utils/io.py:update_last_state", "src/hw2d/utils/io.py:continue_h5_file"]}
{"id": "C67", "title": "add_last_state can be switched on when continuing", "statement": "Refuted: continuing a file created without state_ datasets with add_last_state (or down-sampling) raises KeyError at the first full buffer, after the frames of that flush have been appended.", "quantifier": "a witness execution", "why_tests_cant": "Needs a combination of two runs with different arguments.", "anchors": ["src/hw2d/utils/io.py:update_last_state", "src/hw2d/run.py:run", "src/hw2d/run2.py:run"]}
{"id": "C68", "title": "A simulation records the Runge-Kutta iterates and their properties", "statement": "A fresh run (run.py or run2.py) with recording from any start time writes, for every grid, parameters, initial fields, snapshot interval, buffer length and down-sampling, exactly the frames whose iteration is recorded: time j*step, and density, vorticity and potential of the j-th classical Runge-Kutta iterate of the Hasegawa-Wakatani system; every property dataset holds the mathematical value of that property on the stored frame, run2's fullres_ datasets its value at full resolution, and state_* the last completely buffered frame.", "quantifier": "all backends, parameters, grid sizes, initial fields, recording settings, buffer lengths, rounding functions", "why_tests_cant": "needs the composition of solver, buffer, file and property code for all grids and numbers of steps", "anchors": ["src/hw2d/run.py:27-329", "src/hw2d/run2.py:60-481", "src/hw2d/model.py:230-330", "src/hw2d/utils/run_properties.py:12-130"]}
{"id": "C69", "title": "Stopping and continuing gives the uninterrupted simulation", "statement": "A simulation with zonal=False stopped after n1 steps (a multiple of snaps, with full buffers and a state datum) and continued gives, for run2, the same fields, times, properties and fullres_ datasets as the uninterrupted simulation; for run the same fields and properties, but the recorded times start again at zero (refuted). With zonal=True the continued part of run2 silently simulates with zonal=False (refuted with a file whose density differs).", "quantifier": "all parameters, grids, initial fields, split points, roundings that keep the split time", "why_tests_cant": "equality of whole files over all split points", "anchors": ["src/hw2d/run.py:185-329", "src/hw2d/run2.py:235-481", "src/hw2d/utils/io.py:173-215"]}
{"id": "C70", "title": "continue_file=True keeps the existing file", "statement": "Refuted for run: force_recompute defaults to True and wins over continue_file, so the whole run behaves as if the existing file were absent and its frames are lost. The same holds for run2 when force_recompute is given.", "quantifier": "all simulations, configurations and existing files", "why_tests_cant": "equality of complete behaviours for all existing files", "anchors": ["src/hw2d/run.py:79", "src/hw2d/run.py:187-213", "src/hw2d/run2.py:237-270"]}
{"id": "C71", "title": "A run shorter than its buffer can be continued", "statement": "A user relies on continue_file for any finished down-sampled run (or add_last_state=True). Refuted for every such run with fewer recorded frames than buffer_length (default 100): state_* is still zero, and continuing raises BaseException with the file unchanged.", "quantifier": "all parameters, grids, initial fields and end times with fewer recorded frames than buffer_length", "why_tests_cant": "a failure of every run in a class, not of one input", "anchors": ["src/hw2d/run.py:188-212", "src/hw2d/run.py:270-291", "src/hw2d/utils/io.py:173-200"]}
{"id": "C72", "title": "Fourier down-sampling is exact on resolved waves", "statement": "fourier_downsample returns the samples, on the new grid, of every trigonometric polynomial below both Nyquist frequencies, removes waves above the new one, keeps the mean of every frame exactly, is linear, and refining a grid m-fold keeps the old values.", "quantifier": "every frame size, new size and content, exact arithmetic", "why_tests_cant": "Spectral exactness for all polynomials and sizes.", "anchors": ["src/hw2d/utils/downsample.py:fourier_downsample"]}
{"id": "C73", "title": "Runs from the user's arguments record the down-sampled Runge-Kutta iterates", "statement": "With any grid_pts, k0, downsample_factor, buffer_length, snaps and property list that fit, run() and run2() finish and the file holds exactly the down-sampled (and rounded) iterates and, for every requested property (run2 adds show_property), its value on each recorded frame.", "quantifier": "every argument set, initial state, rounding of stored numbers", "why_tests_cant": "Whole-program property over unbounded runs and all arguments.", "anchors": ["src/hw2d/run.py:run", "src/hw2d/run2.py:run", "src/hw2d/utils/downsample.py:fourier_downsample"]}
{"id": "C74", "title": "Diagnostics of recorded frames equal those at full resolution", "statement": "For frames resolved by the coarse grid the thermal energy, gamma_c and enstrophy computed from the recorded (down-sampled) frames are those of the full-resolution frames. Refuted in general: waves the coarse grid cannot carry are lost from the recorded diagnostics.", "quantifier": "every band-limited frame and both grid sizes; counterexample otherwise", "why_tests_cant": "All frames.", "anchors": ["src/hw2d/run.py:run", "src/hw2d/utils/run_properties.py:calculate_properties", "src/hw2d/utils/downsample.py:fourier_downsample"]}
{"id": "C75", "title": "Band limits of the Fourier noise act on squared frequencies", "statement": "The wave of bin (a,b) in the noise of get_fft_noise (scale 1, factor 2) has the drawn amplitude times gain(q)/q, where q is the squared frequency of the bin and gain is a smooth band filter between min_frequency and max_frequency. A user relies on min_wavelength and max_wavelength bounding the wavelengths in the noise. Refuted: q is compared with 1/wavelength, not with 1/wavelength^2, so with the values run.py passes waves shorter than min_wavelength are kept, and elsewhere longer waves are damped.", "quantifier": "every resolution, draw, box size and band", "why_tests_cant": "Tests draw one array and look at its mean and standard deviation only.", "anchors": ["src/hw2d/initializations/fourier_noise.py:get_fft_noise", "src/hw2d/run.py:run"]}
{"id": "C76", "title": "Initial fields of a run", "statement": "With init_type 'fourier' every initial field has mean 0 and root mean square |init_scale|; with 'sine' all three fields are equal and bounded by |init_scale|; with 'random' and 'normal' they are the scaled draws; any other name raises KeyError. The 'sine' field is periodic over the box exactly when 2 pi / k0 is an integer; for the default k0 = 0.15 it is not (refuted).", "quantifier": "every grid size, k0, scale, draw and name", "why_tests_cant": "All draws and box sizes.", "anchors": ["src/hw2d/run.py:run", "src/hw2d/run2.py:run", "src/hw2d/initializations/sine.py:get_2d_sine"]}
{"id": "C77", "title": "Times in time-trace plots", "statement": "A user relies on the x-axis of a time trace being the time at which the plotted value was recorded. Exactly: the drawn time minus the recorded time is (t0 - i*dt) - start for fixed steps (i the first row drawn), so it is right when the file starts at 0 and t0 is a multiple of the spacing, and wrong for files recorded from a later time (refuted). Adaptive files show the recorded times from the row nearest to t0 on. Nothing is drawn when a property ends before t0.", "quantifier": "every file, property list, t0", "why_tests_cant": "All files and start times.", "anchors": ["src/hw2d/utils/plot/timetrace.py:plot_timetraces"]}
{"id": "C78", "title": "Window of the statistics in time-trace plots", "statement": "Mean and standard deviation are taken over the rows from the one recorded at t0_std on, or over all drawn rows if the file ends before that. Refuted: a file that ends exactly at t0_std has an empty window (NaN); for adaptive files recorded from a later time the window starts too early by that time. For a t0_std before the recording began, the window is not the whole file: it is as many rows at the end of the file as fit between t0_std and the start.", "quantifier": "every file, property list, t0_std", "why_tests_cant": "Boundary case over all lengths.", "anchors": ["src/hw2d/utils/plot/timetrace.py:plot_timetraces"]}
{"id": "C79", "title": "Labels of time-trace plots", "statement": "A user relies on each curve carrying the name of its property. Refuted for plot_timetraces: every label is the text of the builtin class property. plot_timetrace_comparison labels its upper panel correctly, and shows the data of the upper panel with times from the later of t0 and the start of the file.", "quantifier": "every file and property list", "why_tests_cant": "All property lists.", "anchors": ["src/hw2d/utils/plot/timetrace.py:plot_timetraces", "src/hw2d/utils/plot/timetrace.py:plot_timetrace_comparison", "src/hw2d/utils/plot/timetrace.py:process_property"]}
{"id": "C80", "title": "Cut-off of diverged traces and ticks", "statement": "The y-axis is cut off exactly when all drawn values of some property exceed y_cutoff (a user would expect: some value - refuted); in the comparison plot never for y_cutoff >= 0. The comparison plot of a file recorded from a later non-integer time with fewer than 15 tick intervals never succeeds (TypeError) - refuted.", "quantifier": "every file and property list", "why_tests_cant": "All data sets.", "anchors": ["src/hw2d/utils/plot/timetrace.py:plot_timetraces", "src/hw2d/utils/plot/timetrace.py:format_axis", "src/hw2d/utils/plot/timetrace.py:plot_timetrace_comparison"]}
{"id": "C81", "title": "Playback speed of movies", "statement": "Simulated time per second of film is at most speed and less than one spacing below it; there are fewer than 2*min_fps pictures per second and at least min_fps if speed >= min_fps*spacing; the frame rate is zero exactly when speed is smaller than the spacing.", "quantifier": "every speed, spacing and min_fps", "why_tests_cant": "All combinations.", "anchors": ["src/hw2d/utils/plot/movie.py:create_movie_equally_spaced"]}
{"id": "C82", "title": "Colour limits", "statement": "Colour limits of each picture are symmetric, contain the data and never exceed both the old limits and the data; with constant data they shrink towards it, halving the distance per picture. Coupled colour bars are the smallest and largest value of all images and zero. Refuted: new_cbar_max can exceed both the new and the previous maximum.", "quantifier": "every data and previous limits", "why_tests_cant": "All data.", "anchors": ["src/hw2d/utils/plot/movie.py:new_cbar_max_smooth", "src/hw2d/utils/plot/movie.py:new_cbar_max", "src/hw2d/utils/plot/movie.py:create_movie_equally_spaced", "src/hw2d/utils/plot/image.py:plot_dict"]}
{"id": "C83", "title": "Image for a time", "statement": "The image for time t shows the last row recorded not later than t; after the recording it fails with an IndexError. Before the start of the recording it shows a row counted from the end of the file (a user would expect an error - refuted).", "quantifier": "every file and time", "why_tests_cant": "All times.", "anchors": ["src/hw2d/utils/plot/image.py:main"]}
{"id": "C84", "title": "Colour map", "statement": "All colours of the extended colour map lie between 0 and 1, and its upper half passes through the published viridis colours at 10 of the 11 inner positions. Refuted: asking for 600 colours gives 596 in binary64; at the position 0.90 the red value is 34 where viridis has 134.", "quantifier": "every number of colours; positions for the default 600", "why_tests_cant": "All numbers of colours; floating-point truncation; nobody looks at single colours.", "anchors": ["src/hw2d/utils/plot/movie.py:get_extended_viridis"]}
{"id": "C85", "title": "Names in plots", "statement": "The name of a statistic (mean, median, std) of a known quantity is that statistic followed by the name of the quantity; names without a statistic give an empty text; unknown names are shown unchanged. Refuted: a bare statistic name loses its last letter; of the two entries for std_gamma_n the first is never used.", "quantifier": "every name", "why_tests_cant": "All strings.", "anchors": ["src/hw2d/utils/latex_format.py:metric_format", "src/hw2d/utils/latex_format.py:latex_format"]}
{"id": "C86", "title": "plot_timeline", "statement": "A user relies on plot_timeline returning after drawing. Refuted: it raises NameError for every non-empty data (undefined name time).", "quantifier": "every data", "why_tests_cant": "All data.", "anchors": ["src/hw2d/utils/plot/timetrace.py:plot_timeline"]}
{"id": "C87", "title": "Warning about a missing movie writer", "statement": "A user relies on the warning being printed when ffmpeg is not available. Refuted: it is printed exactly when it is.", "quantifier": "every list of writers", "why_tests_cant": "All lists.", "anchors": ["src/hw2d/utils/plot/movie.py:create_movie"]}
{"id": "C88", "title": "A file is described by its attributes", "statement": "After a finished fresh run (either driver) the attributes are dt = step size, frame_dt = step size times snaps, x, y, x_save, y_save, grid_pts = x, initial_time = recording start, adaptive_step_size, and the physics parameters unchanged. Whatever else happens (errors, continuation, being stopped between any two file operations), no attribute with another value is ever written.", "quantifier": "every simulation, configuration, starting file and crash point", "why_tests_cant": "Every combination of parameters, files and interruptions.", "anchors": ["src/hw2d/utils/io.py:get_save_params", "src/hw2d/utils/io.py:create_appendable_h5", "src/hw2d/run.py:run", "src/hw2d/run2.py:run"]}
{"id": "C89", "title": "Images, movies and time traces of a recorded run", "statement": "For a run of run.py recorded from its m-th snapshot on: the image asked for time t is the last recorded state not later than t; with m = 0 every picture of the movie carries the time of the state it shows; with 0 < m <= rows every title is too early; with more skipped than recorded the movie fails; time traces draw the recorded properties of every frame at its time less the recording start.", "quantifier": "every grid, parameter set, initial state, step size, snaps, start snapshot, length", "why_tests_cant": "Composition of the whole simulation with the plotting code, over all of them.", "anchors": ["src/hw2d/run.py:run", "src/hw2d/utils/plot/movie.py:create_movie", "src/hw2d/utils/plot/timetrace.py:plot_timetraces", "src/hw2d/utils/plot/image.py:plot_dict"]}
{"id": "C90", "title": "PhiML finite differences are the numpy ones", "statement": "In exact arithmetic the PhiML periodic_laplace_N returns the numpy array for every grid and order, and periodic_gradient along \"y\" (\"x\") the numpy gradient along axis 0 (1).", "quantifier": "every grid size, field, spacing, order", "why_tests_cant": "All fields and orders.", "anchors": ["src/hw2d/gradients/phiml_gradients.py:periodic_laplace", "src/hw2d/gradients/phiml_gradients.py:periodic_laplace_N", "src/hw2d/gradients/phiml_gradients.py:periodic_gradient"]}
{"id": "C91", "title": "Broken files are not continued", "statement": "Continuing a file whose loaded density, omega, phi or time holds a NaN, or whose density or omega is zero everywhere, raises an error and does no file operation; a readable file without such values is continued from the values read.", "quantifier": "every simulation, configuration and file, run.py and run2.py", "why_tests_cant": "A test tries a handful of damaged files; the claim is about every file and the absence of any write.", "anchors": ["src/hw2d/run.py:run", "src/hw2d/run2.py:run", "src/hw2d/utils/io.py:continue_h5_file"]}
{"id": "C92", "title": "A recorded file holds the documented datasets and no others", "statement": "Wherever a run is stopped, every dataset of its file was there before or is density, omega, phi, time, a requested property, (run2) its fullres_ version, or a state_ dataset when add_last_state is set or frames are down-sampled. Fresh and overwritten files have only these. A fresh run that down-samples keeps the full-resolution state even with add_last_state off.", "quantifier": "every simulation, configuration, file and crash point", "why_tests_cant": "Tests look at the keys of a few finished files.", "anchors": ["src/hw2d/utils/io.py:create_appendable_h5", "src/hw2d/run.py:run", "src/hw2d/run2.py:run", "src/hw2d/utils/run_properties.py:calculate_properties"]}
{"id": "C93", "title": "Second-order accuracy of gradient, Laplacian and bracket", "statement": "On samples of a smooth periodic field every gradient, N-fold Laplacian and Arakawa routine differs from the true derivative, Laplacian power or Poisson bracket by at most an explicit constant times dx^2 (M/6, N 2^N M/12, 4 Mp Mq, where M bounds the derivatives).", "quantifier": "every grid size, spacing, order N, and smooth periodic field", "why_tests_cant": "Convergence tests try a few functions and a few grids; they cannot bound the error for all of them.", "anchors": ["src/hw2d/gradients/numpy_gradients.py:periodic_gradient", "src/hw2d/gradients/numba_gradients.py:periodic_laplace_N", "src/hw2d/poisson_bracket/numpy_arakawa.py:periodic_arakawa_vec", "src/hw2d/poisson_bracket/numba_arakawa.py:periodic_arakawa_stencil"]}
{"id": "C94", "title": "get_phi is exact on resolved waves", "statement": "If the vorticity is the continuous Laplacian of a finite sum of non-constant waves with more than two cells per wavelength, get_phi returns exactly the samples of that sum, with either solver.", "quantifier": "every grid, spacing and finite list of resolved waves", "why_tests_cant": "Tests use single sinusoids with a tolerance.", "anchors": ["src/hw2d/model.py:HW.get_phi", "src/hw2d/poisson_solvers/numpy_fourier_poisson.py:fourier_poisson_double", "src/hw2d/poisson_solvers/numba_fourier_poisson.py:fourier_poisson_double"]}
{"id": "C95", "title": "The right-hand side converges to the Hasegawa-Wakatani equations", "statement": "gradient_2d on samples of smooth periodic potential, density and vorticity differs from the right-hand sides of the partial differential equations (both coupling variants, hyper-diffusion of any order) by at most an explicit constant times dx^2; also when it solves for the potential itself and the vorticity is the Laplacian of resolved waves.", "quantifier": "every grid, parameter set, backend and smooth periodic fields", "why_tests_cant": "No test compares with the continuous equations; sign and scale errors that keep the discrete invariants would go unnoticed.", "anchors": ["src/hw2d/model.py:HW.gradient_2d", "src/hw2d/model.py:HW.diffuse"]}
{"id": "C96", "title": "Rounding errors of gradient, Laplacian and bracket", "statement": "In binary64, on fields of finite numbers bounded by F (and G) away from overflow and underflow, every gradient, N-fold Laplacian and Arakawa routine returns finite numbers that differ from the stencil in exact arithmetic by at most 4 u F/dx, 6 N u (8.01/dx^2)^N F and 22 u F G/dx^2 with u = 2^-53; for samples of a smooth field the computed slope differs from the derivative by at most truncation plus rounding.", "quantifier": "every grid size, spacing, order N and binary64 fields within the stated range", "why_tests_cant": "Tests compare a few arrays with a tolerance; they cannot bound the rounding error of all inputs nor show that nothing overflows.", "anchors": ["src/hw2d/gradients/numpy_gradients.py:periodic_gradient", "src/hw2d/gradients/numba_gradients.py:periodic_laplace_N", "src/hw2d/poisson_bracket/numpy_arakawa.py:periodic_arakawa_vec", "src/hw2d/poisson_bracket/numba_arakawa.py:periodic_arakawa_stencil"]}
{"id": "C97", "title": "Rounding errors of the right-hand side", "statement": "gradient_2d in binary64 with a given potential returns finite time derivatives that differ from the right-hand side in exact arithmetic by at most (6N+16, plus ny with zonal flows) 2^-53 times the sum of the sizes of the terms.", "quantifier": "every grid, binary64 parameters, both sets of schemes and fields within the stated range", "why_tests_cant": "A test cannot separate rounding from a wrong formula; the bound holds for all fields and parameters.", "anchors": ["src/hw2d/model.py:HW.gradient_2d", "src/hw2d/model.py:HW.diffuse"]}
{"id": "C98", "title": "Conservation by the bracket up to rounding", "statement": "The sum of the binary64 bracket over the grid and its inner products with both arguments, zero in exact arithmetic, are at most ny nx times the rounding bound of one value (times F, G); they are not exactly zero.", "quantifier": "every grid, spacing and binary64 fields within the stated range, all five routines", "why_tests_cant": "Tests use a tolerance chosen by hand on a few fields.", "anchors": ["src/hw2d/poisson_bracket/numpy_arakawa.py:periodic_arakawa_vec", "src/hw2d/poisson_bracket/numba_arakawa.py:periodic_arakawa"]}
{"id": "C99", "title": "Plane waves through every operator", "statement": "On a sampled plane wave of any wave vector the periodic gradients return the wave times i sin(2 pi k/n)/dx, the N-fold Laplacian the wave times (-4(sin^2(pi k/ny)+sin^2(pi l/nx))/dx^2)^N, get_phi the wave divided by minus the squared wave number (resolved waves), all five brackets of two waves with the same wave vector are zero, and gradient_2d returns the wave whose amplitudes follow the linear Hasegawa-Wakatani system with these symbols.", "quantifier": "every grid size, spacing, wave vector, amplitudes, model parameters, both sets of schemes", "why_tests_cant": "A test tries a few waves; the discrete dispersion relation is a statement about all of them and all parameters.", "anchors": ["src/hw2d/gradients/numpy_gradients.py:periodic_gradient", "src/hw2d/gradients/numba_gradients.py:periodic_laplace_N", "src/hw2d/poisson_solvers/numpy_fourier_poisson.py:fourier_poisson_double", "src/hw2d/poisson_bracket/numpy_arakawa.py:periodic_arakawa_vec", "src/hw2d/model.py:HW.gradient_2d"]}
{"id": "C100", "title": "Waves stay waves", "statement": "Started from a plane wave, any number of rk4_step or euler_step calls of the full nonlinear program gives a plane wave with the same wave vector; per step its amplitudes are multiplied by the exponential series of the linear system cut after the fourth (first) power.", "quantifier": "every resolved wave vector, amplitudes, parameters, step size and number of steps", "why_tests_cant": "The number of steps and the parameters are unbounded.", "anchors": ["src/hw2d/model.py:HW.rk4_step", "src/hw2d/model.py:HW.euler_step"]}
{"id": "C101", "title": "Drift-wave instability", "statement": "Where the coupling acts on the wave and kappa sin(2 pi k/ny) is not zero there are amplitudes with growth rate drift_rate - damp given in closed form; if positive and the step is small against it, the mean square of the vorticity after m calls of rk4_step is exactly c^2/2 q^m with q > 1; no wave with the same wave vector has a larger growth rate.", "quantifier": "every grid, resolved wave vector, parameters with positive coupling, amplitudes c, number of steps m", "why_tests_cant": "Instability is a statement about unbounded times; the growth rate must be right for all parameters.", "anchors": ["src/hw2d/model.py:HW.rk4_step", "src/hw2d/model.py:HW.gradient_2d"]}
{"id": "C102", "title": "Stability limit of hyper-diffusion", "statement": "With hyper-diffusion alone the sums of squares of density and vorticity never grow over any number of steps if dt nu (8/dx^2)^N <= 2.78 (Euler: 2). On even grids alternating signs are multiplied by 1 - x + x^2/2 - x^3/6 + x^4/24 (Euler: 1 - x) per step, at least 1.007 for x >= 2.79.", "quantifier": "every grid, spacing, order N, viscosity, step size, fields and number of steps", "why_tests_cant": "No finite set of runs separates stable from unstable parameters for all fields.", "anchors": ["src/hw2d/model.py:HW.rk4_step", "src/hw2d/model.py:HW.euler_step", "src/hw2d/model.py:HW.diffuse"]}
{"id": "C103", "title": "Defaults against the stability limit", "statement": "In the full nonlinear system, whatever coupling, drift and bracket coefficients, alternating vorticity with the density equal to its potential is multiplied by the C102 factor in every rk4_step. With the defaults of run.py (1024 points, nu 5e-8, N 3, step 0.025) this factor exceeds 10^7, so the defaults are unstable; the defaults of run2.py and the command line of the README are below the limit.", "quantifier": "every even grid, parameters, amplitude, number of steps; the default arguments of both drivers", "why_tests_cant": "The default run takes hours, and a test on a smaller grid does not show it.", "anchors": ["src/hw2d/run.py:run", "src/hw2d/run2.py:run", "src/hw2d/model.py:HW.rk4_step"]}
{"id": "C104", "title": "Viscous sinks of the balance equations", "statement": "get_D is nu times the N-fold five-point Laplacian of every frame, and get_DE, get_DU, get_dE_dt, get_dU_dt are the stated means and differences. With the signed viscosity of HW, DU is never negative and vanishes on a frame only where density minus vorticity is constant. DE on the other hand is never positive (zero only for constant fields), so the energy balance subtracts a gain; with the unsigned viscosity from the file and even N, DU is never positive either.", "quantifier": "every stack of frames, grid size, spacing, viscosity, order N", "why_tests_cant": "The sign holds for all fields or the diagnostic is wrong; a test sees one field.", "anchors": ["src/hw2d/physical_properties/numpy_properties.py:get_D", "src/hw2d/physical_properties/numpy_properties.py:get_DE", "src/hw2d/physical_properties/numpy_properties.py:get_DU", "src/hw2d/physical_properties/numpy_properties.py:get_dE_dt", "src/hw2d/physical_properties/numpy_properties.py:get_dU_dt"]}
{"id": "C105", "title": "Arithmetic of Namespaces", "statement": "+ and * between a Namespace and a Namespace or number (either side) act key by key and cell by cell on the left operand's keys; / does so with the Namespace on the left; number - Namespace and number / Namespace raise TypeError although __rdiv__ is defined; - computes right minus left. A key missing on the right gives KeyError, extra keys on the right are dropped. Multiplying and dividing by the same nonzero operand gives the Namespace back.", "quantifier": "all Namespaces with any keys and array shapes, all numbers, any arithmetic for the order of operands", "why_tests_cant": "The container is used with changing sets of keys; tests fix keys and values.", "anchors": ["src/hw2d/utils/namespaces.py:Namespace.__add__", "src/hw2d/utils/namespaces.py:Namespace.__sub__", "src/hw2d/utils/namespaces.py:Namespace.__mul__", "src/hw2d/utils/namespaces.py:Namespace.__truediv__", "src/hw2d/utils/namespaces.py:Namespace.__rdiv__"]}
{"id": "C106", "title": "Helper files", "statement": "load_h5_data succeeds exactly when every requested dataset is in the file, and then returns each of them as stored together with all attributes; a missing one gives KeyError, a missing file FileNotFoundError. create_fixed_h5 leaves a file with exactly the named fields, all zero, without attributes, whatever was there before; a name given twice raises ValueError after the old file is lost. Loading the file of a run gives its recorded frames.", "quantifier": "all files, all lists of names (repeated ones too), any frame type", "why_tests_cant": "Depends on what is on disk and on the list of names, of which a test picks one.", "anchors": ["src/hw2d/utils/io.py:load_h5_data", "src/hw2d/utils/io.py:create_fixed_h5"]}
{"id": "C107", "title": "End of the drivers: movie, properties, plot", "statement": "Making the movie and the plots never changes the output file: the operations on it are those of the driver without them, or a beginning of these, also under a crash. The movie is made before the properties: if it raises, no property is computed. A Hasegawa-Wakatani run recorded from the start ends normally with a movie whose titles are right and the requested plots; recorded later but with at most as much skipped as recorded it ends with titles too early; with more skipped than recorded it raises IndexError after the simulation, before any property is stored. The movie function follows the stored attribute adaptive_step_size, and the writer warning is printed exactly when the writer is available.", "quantifier": "all physics, arguments, files and crash points; for the last statements all grids, parameters, initial states and recording starts that are a multiple of the frame distance", "why_tests_cant": "The order of movie and properties matters only when the movie fails, for recording starts tests do not use.", "anchors": ["src/hw2d/run.py:run", "src/hw2d/run2.py:run", "src/hw2d/utils/plot/movie.py:create_movie"]}
{"id": "C108", "title": "End of run2: movie and comparison plot", "statement": "When run2 (or run) by itself ends with a file, then with movie and plots asked for both are made from exactly that file and the file is the same; a failing movie leaves a file that differs in the properties only. A Hasegawa-Wakatani run2 simulation recorded from the start ends normally: every picture of the movie shows the state of its title, the upper panel shows every requested property of every stored frame and the lower one the same property at full resolution, both at the time of the frame, also when the run is marked adaptive (then with the stored times). With a later recording start, given as a float as documented, and less than 1500 time units recorded, run2 raises TypeError after the whole simulation, the file being complete; when no more rows are recorded than were skipped, no plot is drawn and no error is raised.", "quantifier": "all grids, parameters, initial states, roundings, file contents; recording starts that are a multiple of the frame distance", "why_tests_cant": "The plots are made of the file after hours of simulation; the failing cases need a late recording start and depend on the number of rows.", "anchors": ["src/hw2d/run2.py:run", "src/hw2d/utils/plot/timetrace.py:plot_timetrace_comparison", "src/hw2d/utils/plot/movie.py:create_movie"]}
{"id": "C109", "title": "One solution, and the run converges to it", "statement": "On every grid and for all parameters the semi-discrete Hasegawa-Wakatani system has, through every initial state and for every length of time, exactly one solution; it is bounded exponentially in mean square and depends continuously on the initial state. The RK4 steps of the code converge to it with order four and the Euler steps with order one. With the step size of run or run2 going to zero and all other arguments fixed, every recorded frame of the file is within C dt^4 of the solution at its time.", "quantifier": "all grids, spacings, parameters, initial states, end times, exact backends, recording settings; all steps below a bound that depends on the solution", "why_tests_cant": "Existence of the limit and a convergence order are statements about all step sizes at once; a test sees finitely many.", "anchors": ["src/hw2d/model.py:HW.rk4_step", "src/hw2d/model.py:HW.euler_step", "src/hw2d/run.py:run", "src/hw2d/run2.py:run"]}
{"id": "C110", "title": "The code converges to the Hasegawa-Wakatani equations", "statement": "For every smooth periodic solution of the Hasegawa-Wakatani equations (classical or modified, all parameters with nonnegative viscosity) the semi-discrete system of the code started at its samples stays within C h^2 of it in root mean square and C h at every point, with one constant C for all solutions with the same bound of the derivatives and for all grids that fill the box. RK4 steps of the code, and every recorded frame (density, vorticity, potential) of the files of run and run2, are within C h^2 + C' dt^4 in root mean square and C h + C' dt^4 at every point. So every tolerance is met on all fine grids by all small steps.", "quantifier": "all boxes, grids that fill them, parameters with nu >= 0, smooth solutions, end times, exact backends, recording settings; C depends on box, time, parameters and the bound of the derivatives only", "why_tests_cant": "Convergence to the equations is a statement about all grids at once; a test compares finitely many grids and has no exact nonlinear solution to compare with.", "anchors": ["src/hw2d/model.py:HW.rk4_step", "src/hw2d/model.py:HW.gradient_2d", "src/hw2d/run.py:run", "src/hw2d/run2.py:run"]}
{"id": "C111", "title": "What a diverged simulation leaves behind", "statement": "If the density first becomes NaN after step d, run stops there: its file holds exactly the frames due up to step d, at most the last of them NaN. run2 looks for NaN only when it records: it goes on to the first recorded step r >= d, its file holds the frames before d and one NaN frame of step r; if none is recorded before the end it goes on to the end and the file shows no NaN. In binary64 a field with a NaN (or infinities of both signs) sums to NaN in every order of summation and stays such a field through every later step. A file that ends with the NaN frame is not continued if it has no state datasets or the NaN frame completed a flush. Refuted: every such file is refused; after a partial flush the run is resumed from the state before the divergence, at the time of the NaN frame.", "quantifier": "all simulations, arguments, trajectories, divergence steps; all binary64 states and schemes", "why_tests_cant": "Tests use runs that do not diverge, and whether NaN is noticed depends on step, snapshot interval and buffer length together.", "anchors": ["src/hw2d/run.py:run", "src/hw2d/run2.py:run", "src/hw2d/model.py:HW.rk4_step"]}
{"id": "C112", "title": "Names and lists of properties", "statement": "The default list of run2 is one object shared by all calls of the process: it only grows, by the show_property of every call made without a list; refuted: a call without a list uses the documented list. A list without show_property is extended by it; a tuple or string without it raises TypeError before any file is touched; a string with it is split into characters. A property that cannot be computed ends run2 at the first frame to be recorded, however late, with the file as created (parameters, empty datasets). Such a file blocks later runs of both drivers: continuing raises IndexError, otherwise nothing is simulated and no error is given. For HW simulations the first bad name decides: TypeError for DE, DU, dE_dt, dU_dt, KeyError for any other; one call plotting such a property spoils every later default call. run.py instead succeeds and records zeros for a name it does not know.", "quantifier": "all simulations, arguments, lists of names, sequences of calls, recording times", "why_tests_cant": "Tests call the driver once per process with valid names; the shared default and the leftover file only show up over several calls.", "anchors": ["src/hw2d/run2.py:run", "src/hw2d/run.py:run", "src/hw2d/utils/run_properties.py:calculate_properties", "src/hw2d/utils/io.py:continue_h5_file"]}
{"id": "C113", "title": "The benchmark compares kernels that agree", "statement": "The benchmark script measures groups of kernels and stops with an error as soon as np.allclose tells the values of two of them apart. In exact arithmetic the Laplacians and the five brackets agree on all arrays; the Poisson solvers while |mean| dx^2 <= 10^6 (refuted for all dx); numpy's own gradient ignores dx, so its group agrees iff the central differences for dx and for 1 do. For positive dx the script with its default groups never fails on arrays as it sets them up if and only if |1 - dx| <= 3e-5 dx: always for the default dx = 1; refuted for other dx. An unknown group is a TypeError after the groups before it.", "quantifier": "all positive dx, all sizes measured, all arrays with entries in [0, 1/1000)", "why_tests_cant": "Tests do not run the benchmark; which dx pass depends on the tolerances of the comparison and on all arrays the set-up can produce.", "anchors": ["src/hw2d/utils/performance_comparison.py:main", "src/hw2d/utils/performance_comparison.py:get_function_defs"]}
{"id": "C114", "title": "Energy and enstrophy carried with the fields", "statement": "A plasma may carry numbers under dE and dU. k steps of euler_step or rk4_step of an HW object built with TEST_CONSERVATION add to them the Euler or Runge-Kutta quadrature of the rates Gamma_n - Gamma_c - D_E and Gamma_n - D_U, and the fields step as without them. For nu = 0, kappa = 1, no zonal coupling: with Euler the energy and enstrophy of the fields minus the carried numbers grow by exactly dt^2 times the energy and enstrophy of the slopes; with rk4 they differ from the change of energy and enstrophy by at most C dt^4 up to a fixed time. For all parameters rk4 carries fourth-order quadratures of the reported rates along the solution. The enstrophy is the code's get_enstrophy; for get_energy (central differences) the statement is refuted at first order. With TEST_CONSERVATION off every step of such a plasma is a KeyError.", "quantifier": "all grids, parameters, spacings, numbers of steps, initial fields and carried numbers", "why_tests_cant": "The test follows three steps of one stored state within loose tolerances.", "anchors": ["src/hw2d/model.py:HW.euler_step", "src/hw2d/model.py:HW.rk4_step", "src/hw2d/model.py:hw2d_gradient"]}
{"id": "C115", "title": "Binary64 simulations against the exact solution", "statement": "One call of rk4_step in binary64 arithmetic, with any Poisson solver whose results lie within d of the exact potential, returns finite fields within an explicit step_err of the exact classical Runge-Kutta step of the semi-discrete system, as long as the fields stay inside a stated range far from overflow and underflow and dt times the Lipschitz constant is at most 1. k calls from fields within e of y stay within (1 + 2 dt L)^k (e + k step_err) of the exact k steps, and within exp(2 L T) (e + T step_err / dt) + C dt^4 of the solution of the semi-discrete system, with C independent of dt, k and the rounding. The age is the binary64 sum. The bound L exists on every grid: the inverse Laplacian is bounded and the right-hand side Lipschitz on bounded sets.", "quantifier": "all grids, spacings, hyperdiffusion orders, parameters, fields and step lengths in the stated range, all numbers of steps, all solvers with error d", "why_tests_cant": "Rounding errors accumulate over thousands of steps; no test compares with the exact solution.", "anchors": ["src/hw2d/model.py:HW.rk4_step", "src/hw2d/model.py:HW.euler_step", "src/hw2d/utils/namespaces.py:Namespace"]}
{"id": "C116", "title": "The row shown for a time, in binary64", "statement": "numpy's // on binary64 numbers is the exact floor of the exact quotient of its operands for quotients up to 2^49. Hence the image of a file of equally spaced frames asked for time t shows the row that is the exact floor of (t - initial_time)/frame_dt, an IndexError past the last row, and a row counted from the end for earlier times. Asked for the binary64 product k * frame_dt it shows row k when the product was rounded up or is exact and row k - 1 when it was rounded down; so it is not true that time k * frame_dt shows frame k: with frame_dt = 0.05, t = 1 shows row 19, and with the defaults frame_dt = 0.025 and t = 200 it shows row 7999 instead of 8000. The first row of a time trace is the same floor. Movies round instead: any time within a quarter of the spacing of k * frame_dt is row k, and a movie without limits goes from row 0 to the last.", "quantifier": "all binary64 times, spacings, starting times and numbers of rows in the stated range", "why_tests_cant": "The outcome depends on the last bit of frame_dt; a test picks a few values and mostly those that are exact.", "anchors": ["src/hw2d/utils/plot/image.py:main", "src/hw2d/utils/plot/movie.py:time_to_length", "src/hw2d/utils/plot/movie.py:create_movie", "src/hw2d/utils/plot/timetrace.py:plot_timetraces"]}
{"id": "C117", "title": "The time axis of a plot, in binary64", "statement": "get_uniform_x in binary64 returns exactly one time per value, for every starting time and spacing up to 2^47 spacings, and its i-th time lies within (i + 4) rounding errors of the largest time of t0 + i * dt. np.arange alone, before the slice to the number of values, does not have this: with spacing 0.1 and three values it returns four times.", "quantifier": "all binary64 starting times and spacings in range, all numbers of values", "why_tests_cant": "Whether arange returns an additional value depends on the last bits of the spacing and of the number of values.", "anchors": ["src/hw2d/utils/plot/timetrace.py:get_uniform_x"]}
{"id": "C118", "title": "The image script: panels and file names", "statement": "For any file and any time with a row, image.main draws density, vorticity and potential of that row in this order, under their titles, each coloured exactly over its own range, the vorticity less its mean when zero_omega is set; for a recorded run these are the last recorded states not later than t. plot_dict draws one panel per entry in order, and coupled colour bars span 0 and all entries. Refuted: a single field cannot be plotted (TypeError); on grids that are not square the horizontal ticks are those of the rows; images of different times are saved under the same names (the last four characters of the path, which carry the time, are cut off), e.g. t = 200 and t = 300; and the path reported as saved is never one of the files written.", "quantifier": "all files, grids, times, paths, save types and runs", "why_tests_cant": "The names collide only between calls; no test calls main.", "anchors": ["src/hw2d/utils/plot/image.py:main", "src/hw2d/utils/plot/image.py:plot_dict", "src/hw2d/utils/latex_format.py:latex_format"]}
{"id": "C119", "title": "The conservation test does not influence the simulation", "statement": "For every number type (exact, binary64, binary32), grid, parameters, time step, number of steps and potential solver that keeps the shape, Runge-Kutta steps of an object with TEST_CONSERVATION=True (the default of run.py's HW) return exactly the Namespace, or raise exactly the exception, that an object with TEST_CONSERVATION=False returns or raises; the same for an Euler step. The rates dE and dU computed at every stage are in none of the returned states.", "quantifier": "all number types, grids, parameters, states, solvers, step numbers", "why_tests_cant": "A test compares two runs on one grid; equality to the last bit on every input is not testable, and the extra entries pass through every Namespace sum.", "anchors": ["src/hw2d/model.py:gradient_2d", "src/hw2d/model.py:rk4_step", "src/hw2d/model.py:euler_step", "src/hw2d/utils/namespaces.py:Namespace"]}
{"id": "C120", "title": "The file of a binary64 run against the exact solution", "statement": "run.py in binary64 with a new file, full resolution and no properties completes, and its file has one row per recorded iteration (the start and every snaps-th step): density and vorticity of row j are within E + 2^-24 B + 2^-150 of the exact solution of the semi-discrete system at j*dt, where E collects initial error, rounding, solver error (amplified by the exponential of the Lipschitz constant) and C dt^4; the potential is within Lam E + d plus its float32 error of the exact potential; the time within 2^-23 T. The NaN check adds the density in any order and never stops such a run.", "quantifier": "all grids, parameters, step lengths, snapshot distances, buffer lengths, orders of summation, solvers with a given error", "why_tests_cant": "The bound ties the bytes on disk to the differential equation for every run; a test has no exact solution to compare with and checks a few numbers.", "anchors": ["src/hw2d/run.py:run", "src/hw2d/utils/io.py:create_appendable_h5", "src/hw2d/utils/io.py:append_h5", "src/hw2d/model.py:rk4_step"]}
{"id": "C121", "title": "Rounding errors of the Fourier Poisson solvers", "statement": "In binary64, with any transforms whose error is at most eps times the sum of their inputs, the NumPy solver returns finite values within (5 eps + 40 u) Lam B of the exact inverse Laplacian of the vorticity (u = 2^-53, B the size of the vorticity, Lam the sum of the reciprocals of the symbol); the Numba solver the same plus 2.1e-14 dx^2 B, since it divides the constant mode by 1e14 instead of removing it. The potential of the model (vorticity less its mean) has an error below phi_fft_err, at most a thousandth of Lam B, so the rows of the file of a run satisfy C120's bound assuming only the accuracy of the transforms.", "quantifier": "all grids up to a million cells per axis (65536 with Numba), spacings, vorticities of moderate size, transforms of accuracy eps", "why_tests_cant": "A test compares the solver with one analytic field to a tolerance; the bound holds for every field and grid and enters the error of the file.", "anchors": ["src/hw2d/poisson_solvers/numpy_fourier_poisson.py:fourier_poisson_double", "src/hw2d/poisson_solvers/numba_fourier_poisson.py:fourier_poisson_double", "src/hw2d/poisson_solvers/numba_fourier_poisson.py:core_computation", "src/hw2d/model.py:get_phi"]}
{"id": "C122", "title": "Visible part of time-trace plots; pictures of the script", "statement": "In the comparison plot exactly the drawn values that are not negative can be seen (the smallest value is passed by value and stays 0), so a property with only negative values is drawn invisibly - refuting that drawn curves can be seen; in plot_timetraces everything is visible as soon as some value is below -1e-8, else the non-negative values, and with the cut-off those up to the limit. The time axis runs from t0 to t0 plus the last drawn time of the last property: refuted that it ends at the data (for t0 > 0) and that all points are inside (a shorter last property). timetrace.main with comparison=False and an output path leaves the second figure only; without one, two files; default names cut the file name at its first '.h5'.", "quantifier": "all files, properties, start times, cut-offs, automatic limits with a margin, file names", "why_tests_cant": "The limits depend on order and sign of all values and on what matplotlib chooses; a test looks at the exit status of one plot.", "anchors": ["src/hw2d/utils/plot/timetrace.py:format_axis", "src/hw2d/utils/plot/timetrace.py:process_property", "src/hw2d/utils/plot/timetrace.py:plot_timeline_with_stds", "src/hw2d/utils/plot/timetrace.py:main"]}
{"id": "C123", "title": "Rounding errors of the physical diagnostics, for every order of summation", "statement": "Gamma_n, Gamma_c, energy, enstrophy, enstrophy from phi, DE and DU computed from float64 fields are finite and within (1.01 * depth + small constant) * 2^-53 * size of the exact diagnostics of these fields, where depth is the longest chain of additions in the order numpy happens to choose (every tree that reads each cell once; row-by-row summation is one with depth ny + nx). After k binary64 steps the four main diagnostics are within an explicit bound of the diagnostics of the exact solution of the semi-discrete system at that time. The value does depend on the order of summation.", "quantifier": "all grid sizes up to 2^50 cells, all fields far from overflow and underflow, all summation orders up to depth 10^12, all numbers of steps", "why_tests_cant": "numpy's summation order depends on layout, processor and version; a test compares two floats with a tolerance nobody has justified.", "anchors": ["src/hw2d/physical_properties/numpy_properties.py:get_gamma_n", "src/hw2d/physical_properties/numpy_properties.py:get_gamma_c", "src/hw2d/physical_properties/numpy_properties.py:get_energy", "src/hw2d/physical_properties/numpy_properties.py:get_enstrophy", "src/hw2d/physical_properties/numpy_properties.py:get_enstrophy_phi", "src/hw2d/physical_properties/numpy_properties.py:get_DE", "src/hw2d/physical_properties/numpy_properties.py:get_DU"]}
{"id": "C124", "title": "Complete pictures of a movie", "statement": "Every row a movie shows becomes one picture with three panels: the first three fields of plot_order, each with the data of that row (the vorticity less its mean with zero_omega), the time of that row, and symmetric colour limits that contain all its data and exceed the amplitude of the row by at most half of the excess of the earlier pictures and of row 0 of the file. The first picture's limits are a + (a0 - a)/2^(k+1), where a0 is the amplitude of row 0 and k the number of drawings before saving: the colours depend on a row that is not shown. The movie of a run from the start shows the stored fields of the frames at their times. Fewer than three fields never give a movie, names after the third are ignored, and the file name contains neither the fields nor zero_omega, so movies of different fields overwrite each other.", "quantifier": "all files, field orders, time windows, frame rates, speeds, numbers of rows and grid sizes", "why_tests_cant": "Tests of a plotting script check that a file appears; what is drawn in each frame, for any file and any choice of options, is not observable that way.", "anchors": ["src/hw2d/utils/plot/movie.py:setup_visualization", "src/hw2d/utils/plot/movie.py:setup_figure", "src/hw2d/utils/plot/movie.py:create_movie_equally_spaced", "src/hw2d/utils/plot/movie.py:create_movie_unequal_spaced_fine", "src/hw2d/utils/plot/movie.py:create_movie", "src/hw2d/utils/plot/movie.py:main"]}
{"id": "C125", "title": "No preferred origin, up to the file", "statement": "Two simulations with the same arguments whose initial density, vorticity and potential differ by a shift along the axes write files that differ by that shift only: the same times, identical recorded properties (all eight, also at full resolution in run2), every recorded frame shifted by the same distance and the stored full-resolution state shifted. With down-sampling this needs a shift by a whole number of saved cells; for a shift between saved cells even the first frame of the second file need not be a shift of the first one. The same holds for the reflection of x together with a change of sign when storing rounds x and -x alike.", "quantifier": "all backends, arguments, grid sizes, down-sampling factors, shifts, initial fields, numbers of steps and rounding functions", "why_tests_cant": "Needs two runs compared for every shift and every initial field; a test compares a few runs and only up to a tolerance.", "anchors": ["src/hw2d/run.py:run", "src/hw2d/run2.py:run", "src/hw2d/model.py:HW", "src/hw2d/utils/downsample.py:fourier_downsample"]}
{"id": "C126", "title": "Why the bracket averages three Jacobians", "statement": "The functions jpp, jpx and jxp are the centred forms A_x B_y - A_y B_x, (A B_y)_x - (A B_x)_y and (B A_x)_y - (B A_y)_x on the periodic grid (numpy and numba; phiml's versions have the opposite sign), and the bracket is their plain mean. Every weighted sum of the three has zero total, but conserves the product with the first field for all fields exactly when the weights of jpp and jpx agree, and with the second exactly when those of jpp and jxp agree: among the consistent sums only the plain mean conserves both. jpp alone conserves neither, jpx only the product with the second field, jxp only with the first. On quadratics jpp is exact and the other two are off by constants of second order in the spacing.", "quantifier": "all grids (for the converse at least 3 x 3), spacings, weights and fields", "why_tests_cant": "Says that no other weights would do, and quantifies over all fields; a test can only check the given bracket on sample fields.", "anchors": ["src/hw2d/poisson_bracket/numpy_arakawa.py:jpp", "src/hw2d/poisson_bracket/numpy_arakawa.py:jpx", "src/hw2d/poisson_bracket/numpy_arakawa.py:jxp", "src/hw2d/poisson_bracket/numba_arakawa.py:arakawa", "src/hw2d/poisson_bracket/phiml_arakawa.py:jpp"]}
{"id": "C127", "title": "What the printed profile says", "statement": "The table printed after a run has one row for each of the five profiled functions, with the calls of k steps plus one initial potential, the mean time per call, and the rows in the order of that mean, functions that were never called last with NaN. With a clock that is never set back no time is negative and the parts of the steps take no longer than the steps: the shares of diffuse, gradient_2d and poisson_bracket add up to at most 100 per cent. get_phi is also called once before the first step, so its share can exceed 100 per cent. A run without steps prints NaN for full_step and inf for get_phi, and since time.time() may be set back every printed time can be negative. Reading the clock does not change the results.", "quantifier": "all clocks, schemes, parameters, fields and numbers of steps", "why_tests_cant": "Wall-clock times differ from run to run, so a test cannot assert anything about them; the statement holds for every sequence of readings.", "anchors": ["src/hw2d/model.py:HW.print_log", "src/hw2d/model.py:HW.log", "src/hw2d/model.py:HW.rk4_step", "src/hw2d/model.py:HW.get_phi", "src/hw2d/run.py:run"]}
{"id": "C128", "title": "The uncoupled flow: c1 = 0", "statement": "With c1 = 0 vorticity and potential do not depend on the density, whatever the gradient, the viscosity, the integrator and the number of steps. Without gradient densities superpose in a given flow, and a density that is an affine function of the vorticity stays that function. Without viscosity the exact system keeps mean omega^2 and the kinetic energy, and without gradient mean n^2 and mean n omega; with viscosity mean omega^2 and mean n^2 only decrease. Runge-Kutta steps of the code drift from these values by at most C dt^4 up to any fixed time; Euler steps never lose any of them and gain exactly dt^2 times the same mean of the slopes.", "quantifier": "all grids, spacings, parameters with c1 = 0, fields, step sizes and numbers of steps", "why_tests_cant": "A test runs one field for some steps and sees a small drift; it can neither tell the order of the drift for all fields nor that the vorticity of two runs agrees for all densities.", "anchors": ["src/hw2d/model.py:HW.gradient_2d", "src/hw2d/model.py:HW.rk4_step", "src/hw2d/model.py:HW.euler_step", "src/hw2d/poisson_bracket/numpy_arakawa.py:periodic_arakawa_vec"]}
{"id": "C129", "title": "Round trip through the two Laplacians", "statement": "Solving the Poisson equation for the five-point Laplacian of a field, and taking the five-point Laplacian of the potential of a field, give the same field with both backends: the mean is removed and the wave with k and l periods is multiplied by (sin^2 a + sin^2 b)/(a^2 + b^2), a = pi k/ny, b = pi l/nx. Its rms is between 4/pi^2 and 1 times that of the field without mean, and its rms distance from it is at most dx^2/12 times the rms of the Laplacian. The solver is not the inverse of periodic_laplace: on even grids the alternating field comes back multiplied by 4/pi^2; the sine of the test by (sin(pi/n)/(pi/n))^2. Hence the reported energy misses between 0 and dx^2/6 mean(omega^2) of the energy the equations balance (all of the kinetic part for alternating fields), and the square roots of twice the enstrophies from omega and from phi differ by at most dx^2/12 rms(lap omega).", "quantifier": "all grids, spacings, fields and stacks of frames", "why_tests_cant": "A test (test_poisson.py) looks at two smooth fields on one grid and prints errors; it can neither give the worst factor over all fields nor an error bound.", "anchors": ["src/hw2d/gradients/numpy_gradients.py:periodic_laplace", "src/hw2d/poisson_solvers/numpy_fourier_poisson.py:fourier_poisson_double", "src/hw2d/physical_properties/numpy_properties.py:get_energy", "src/hw2d/physical_properties/numpy_properties.py:get_enstrophy_phi", "tests/test_poisson.py:test_poisson"]}
{"id": "C130", "title": "Single precision Poisson solver", "statement": "fourier_poisson_single returns in every cell a single precision number nearest to the result of fourier_poisson_double for the input rounded to single precision. For fields in range its rms distance from the double precision result v of the field f is at most 2^-24 rms(v) + (1 + 2^-24) ((ny dx)^2 + (nx dx)^2)/(2 pi)^2 (2^-24 rms(f) + 2^-150) + 2^-150. Unlike the double precision result it need not have mean zero.", "quantifier": "all grids, spacings, fields with values up to 2^127", "why_tests_cant": "A test compares the two solvers on one field with a tolerance; it gives no bound in terms of the domain size and does not exhibit a potential whose mean is not zero.", "anchors": ["src/hw2d/poisson_solvers/numpy_fourier_poisson.py:fourier_poisson_single", "src/hw2d/poisson_solvers/numpy_fourier_poisson.py:fourier_poisson_double"]}
{"id": "C131", "title": "Step size limit of the coupling", "statement": "Where the background gradient does not drive a wave (kappa = 0, or waves constant along y), every RK4 step multiplies phi - n by the truncated exponential of -dt (c1 (1 + 1/k^2) + damping), and n - omega by that of the damping alone (Euler: 1 - dt rate). phi - n stays bounded if dt times the rate is at most 2.78 and grows without bound from 2.79 on. The largest waves of the box have the highest rate, c1 (1 + 1/k0^2), at every resolution. All rows of the README's table of step sizes satisfy the limit; for c1 = 2.5, 3, 4, 5 the next larger step size of the table violates it, with kappa and bracket at their defaults.", "quantifier": "all grids, spacings, waves, amplitudes, step sizes, numbers of steps; the 15 rows of the README's table", "why_tests_cant": "The limit is about the largest wave in the box and thousands of steps; tests run a few steps and compare with stored results, so neither a step size beyond the limit nor its dependence on the box is seen.", "anchors": ["src/hw2d/model.py:gradient_2d", "src/hw2d/model.py:rk4_step", "src/hw2d/model.py:euler_step", "README.md:212-231"]}
{"id": "C132", "title": "States that vary along x only", "statement": "A state that is the same in every row stays so under rk4_step and euler_step, and kappa and the bracket coefficient do not influence it. With zonal=True only the hyper-diffusion acts on it: without viscosity it is exactly at rest, with viscosity its norms do not grow below the step size limit of the diffusion. Without viscosity n - omega of such a state rests in both modes.", "quantifier": "all grids, states constant along y, parameters, step sizes and numbers of steps", "why_tests_cant": "Stationarity for every zonal profile and every number of steps is a statement about infinitely many inputs; a test takes one profile and a tolerance.", "anchors": ["src/hw2d/model.py:gradient_2d", "src/hw2d/zonal_transform/numpy_zonal_transform.py:zonal_transform", "src/hw2d/model.py:rk4_step", "src/hw2d/model.py:euler_step"]}
{"id": "C133", "title": "Transport of y-averages", "statement": "The average over y of the time derivatives returned by gradient_2d is the coupling of the averages (zero with zonal=True), minus the bracket coefficient times the difference of a flux through the two faces of the column divided by dx, plus the hyper-diffusion of the average. The flux is the y-averaged -d_y phi times the field, with weight 4/6 at the face and 1/6 in either column. The background gradient does not act on averages over y.", "quantifier": "all grids with at least one cell, fields, potentials, parameters", "why_tests_cant": "The identity ties Arakawa's nine-point bracket to a conservation law with one specific flux; tests compare single brackets with stored values.", "anchors": ["src/hw2d/model.py:gradient_2d", "src/hw2d/poisson_bracket/numpy_arakawa.py:periodic_arakawa_vec", "src/hw2d/poisson_bracket/numba_arakawa.py:periodic_arakawa"]}
{"id": "C134", "title": "Exact cancellation in double precision", "statement": "On fields whose rows are all the same, the vectorised bracket and the gradient along y are zero in every cell in double precision, not merely small; so is the bracket with a constant second argument. The time derivative of such a state again has identical rows and is to the last bit independent of the coefficients of the bracket and of the background gradient. It does not extend: the versions that add three Jacobians, fields with identical columns, a constant first argument and the bracket of a field with itself give nonzero rounding errors.", "quantifier": "all grids, finite spacings and fields between 2^-200 and 2^200 in size with identical rows, all finite coefficients, both backends", "why_tests_cant": "Whether a rounding error is exactly zero depends on the order of the additions in the source; a test with a tolerance cannot see it, and a test with exact comparison sees it for one field.", "anchors": ["src/hw2d/poisson_bracket/numpy_arakawa.py:periodic_arakawa_vec", "src/hw2d/poisson_bracket/numba_arakawa.py:arakawa_stencil", "src/hw2d/poisson_bracket/numba_arakawa.py:periodic_arakawa", "src/hw2d/gradients/numpy_gradients.py:periodic_gradient", "src/hw2d/model.py:gradient_2d"]}
{"id": "C135", "title": "Step size limit of advection", "statement": "The bracket with a field whose values differ by at most D is bounded by D / dx^2 in the root mean square. When the flow is steady (vorticity with identical rows, or one wave without background gradient), c1 = 0 and nu = 0, steps leave vorticity and potential alone, and one Runge-Kutta step changes mean n^2 by exactly -(dt c)^6/72 mean (J^3 n)^2 + (dt c)^8/576 mean (J^4 n)^2, an Euler step by (dt c)^2 mean (J n)^2, with J the bracket with the potential and c its coefficient. Hence with dt |c| (max phi - min phi) / dx^2 <= 2 sqrt 2 no number of Runge-Kutta steps increases mean n^2, and for every density on which the flow acts there is a dt beyond which one step increases it.", "quantifier": "all grids, spacings, steady flows, densities, step sizes and numbers of steps", "why_tests_cant": "A test sees one density not blow up for some steps; that no density does below a limit, and that every one does beyond some step size, is about all of them.", "anchors": ["src/hw2d/model.py:HW.gradient_2d", "src/hw2d/model.py:HW.rk4_step", "src/hw2d/model.py:HW.euler_step", "src/hw2d/poisson_bracket/numpy_arakawa.py:periodic_arakawa_vec"]}
{"id": "C136", "title": "Units of amplitude and time; small amplitudes", "statement": "The step functions have no hidden scale. Fields a times as large, c1, nu and kappa tau times as large, poisson_bracket_coeff tau / a times as large and steps tau times as short: after any number of Runge-Kutta or Euler steps density, vorticity and potential are exactly a times those of the original run. Without the change of poisson_bracket_coeff this fails. Started from a times given fields with |a| <= 1, m steps stay within K a^2 of a times the m steps of the run without bracket, with K depending on the fields, parameters, dt and m but not on a.", "quantifier": "all grids, parameters, states, factors a and tau, step sizes and numbers of steps", "why_tests_cant": "A test can compare two runs at a few factors up to a tolerance; that no constant, threshold or unit is hidden in any branch concerns all of them, and a quadratic bound uniform in a is a limit statement.", "anchors": ["src/hw2d/model.py:HW.gradient_2d", "src/hw2d/model.py:HW.rk4_step", "src/hw2d/model.py:HW.euler_step"]}
{"id": "C137", "title": "Arrays in memory", "statement": "In a model where Namespaces hold references to arrays, operators allocate, += and -= overwrite and periodic_laplace_N may return its argument: one Runge-Kutta or Euler step logs the same calls, raises the same exceptions and returns the same values as on plain values, even when several keys of the plasma hold one array; it changes no array that existed before, also when it raises, and the arrays it returns are new and pairwise different. Hence every state kept during a run still has its values at the end, and a failed step can be repeated from the same plasma. get_enstrophy_phi subtracts in place but leaves phi alone. Refuted: that Namespace.copy is independent of the original; its arrays are shared.", "quantifier": "all number types, schemes, heaps, plasmas with arbitrary sharing, parameters, step sizes and numbers of steps", "why_tests_cant": "Tests look at returned values; an overwritten input shows only when the caller still uses it, in combinations of flags and sharing no test enumerates.", "anchors": ["src/hw2d/model.py:HW.gradient_2d", "src/hw2d/model.py:HW.rk4_step", "src/hw2d/model.py:HW.euler_step", "src/hw2d/utils/namespaces.py:Namespace.copy", "src/hw2d/gradients/numpy_gradients.py:periodic_laplace_N", "src/hw2d/physical_properties/numpy_properties.py:get_enstrophy_phi"]}
{"id": "C138", "title": "A domain made of copies simulates one copy", "statement": "On a grid of a x b copies of given initial fields, with the same spacing dx, any number of Runge-Kutta or Euler steps gives a x b copies of the density, vorticity and potential that one copy gives alone, for all parameters (also the zonal coupling, whose averages run over all copies). Equivalently, wavenumbers that are not multiples of a in y and of b in x never appear if the initial fields do not have them. gamma_n, gamma_c, energy, enstrophy and enstrophy_phi of copies are those of one copy.", "quantifier": "all grid sizes, numbers of copies a and b, fields, parameters, backends, step sizes, numbers of steps; stacks of frames of any shape for the diagnostics", "why_tests_cant": "The statement relates runs on different grids; exact equality is hidden by rounding, and growth of forbidden wavenumbers from rounding noise looks the same as growth from a coupling error.", "anchors": ["src/hw2d/model.py:HW.rk4_step", "src/hw2d/model.py:HW.euler_step", "src/hw2d/poisson_solvers/numpy_fourier_poisson.py:fourier_poisson_double", "src/hw2d/gradients/numpy_gradients.py:periodic_laplace", "src/hw2d/poisson_bracket/numpy_arakawa.py:periodic_arakawa_vec", "src/hw2d/physical_properties/numpy_properties.py:get_energy"]}
{"id": "C139", "title": "Directions: turns, reflections and the background gradient", "statement": "Reversing kappa_coeff is the same as mirroring the fields in y with the opposite sign, or turning them by half a turn: any number of Runge-Kutta or Euler steps with -kappa from the mirrored (turned) fields gives the mirrored (turned) results, for all other parameters. With kappa = 0 and zonal=False no direction is preferred: exchanging x and y with the opposite sign, or turning the fields by a right angle (on the exchanged grid), commutes with the steps. Refuted: that the axes can be exchanged with a background gradient; it acts along y only. gamma_c, energy and enstrophy are the same for exchanged axes and mirror images; gamma_n of the mirror image is reversed.", "quantifier": "all grid sizes (also ny <> nx), fields, parameters, backends, step sizes, numbers of steps; stacks of frames of any shape for the diagnostics", "why_tests_cant": "A pair of exchanged axes or a reversed sign in one operator is invisible on the symmetric fields and square grids of the tests, and the relation compares different runs.", "anchors": ["src/hw2d/model.py:HW.gradient_2d", "src/hw2d/model.py:HW.rk4_step", "src/hw2d/model.py:HW.euler_step", "src/hw2d/gradients/numpy_gradients.py:periodic_gradient", "src/hw2d/poisson_bracket/numpy_arakawa.py:periodic_arakawa_vec", "src/hw2d/physical_properties/numpy_properties.py:get_gamma_n"]}
{"id": "C140", "title": "Constants in the fields evolve by themselves", "statement": "For N >= 1, adding constants c and d to density and vorticity changes nothing else in a simulation: after m steps the density has c q^m more, the vorticity d - c + c q^m more, and the potential is the same. q is the exponential series of -c1 dt cut after the fourth (Runge-Kutta) or first (Euler) power, and 1 with zonal=True. The means of the fields follow the same law. The factor is between -1 and 1 up to c1 dt = 2.78 (Euler: 2), larger than 1 from 2.79 on. Refuted for N = 0: the mean vorticity then also decays.", "quantifier": "all grid sizes, fields, constants, parameters with N >= 1, backends, step sizes, numbers of steps", "why_tests_cant": "The initial noise has a non-zero mean; whether that mean influences the turbulence is a statement about pairs of runs, and its decay is hidden in the fluctuations.", "anchors": ["src/hw2d/model.py:HW.gradient_2d", "src/hw2d/model.py:HW.rk4_step", "src/hw2d/model.py:HW.euler_step", "src/hw2d/poisson_solvers/numpy_fourier_poisson.py:fourier_poisson_double"]}
{"id": "C141", "title": "Superposition and independent modes without the bracket", "statement": "With poisson_bracket_coeff = 0, a simulation started from u times one set of fields plus v times another gives, after any number of Runge-Kutta or Euler steps, u times the one result plus v times the other, for density, vorticity and potential. Each Fourier coefficient of the results depends on nothing but the coefficients of that mode of density and vorticity at the start. Refuted with the bracket: a flow without a part in the mode (1, 0) changes the coefficient (1, 0) of the density.", "quantifier": "all grid sizes, fields, parameters without bracket, backends, step sizes, numbers of steps, all modes including Nyquist", "why_tests_cant": "Superposition is a statement about triples of runs with arbitrary weights; that no mode leaks into another needs every pair of modes.", "anchors": ["src/hw2d/model.py:HW.gradient_2d", "src/hw2d/model.py:HW.rk4_step", "src/hw2d/model.py:HW.euler_step", "src/hw2d/poisson_solvers/numpy_fourier_poisson.py:fourier_poisson_double"]}
{"id": "C142", "title": "Files without the attributes of later versions", "statement": "A file without the attributes adaptive_step_size and initial_time is drawn exactly like the same file with adaptive_step_size = False and initial_time = 0: time traces, comparison of traces (start time at least 0), equally spaced movie and the row of an image. create_movie raises KeyError on every file without adaptive_step_size, also where the movie it would make exists (refuted).", "quantifier": "all files, properties, labels, start times, limits, frame rates", "why_tests_cant": "The defaults are in several functions; that no output depends on whether the attributes exist is a statement about pairs of arbitrary files.", "anchors": ["src/hw2d/utils/plot/timetrace.py:plot_timetraces", "src/hw2d/utils/plot/timetrace.py:plot_timetrace_comparison", "src/hw2d/utils/plot/movie.py:create_movie", "src/hw2d/utils/plot/image.py"]}
{"id": "C143", "title": "Which cells the operators look at", "statement": "The N-fold Laplacian at a cell depends only on the cells at most N steps away along the axes (across the periodic edges), bit for bit in every arithmetic, in both implementations; the distance is exact: N cells from a single cell the value is 1 / dx^(2N) on every grid with more than 2N rows. The bracket at a cell depends on the eight cells around it and not on the cell itself; the gradient on the two cells beside it. Refuted for the potential: the vorticity of one corner changes the potential at the opposite cell.", "quantifier": "all grid sizes, orders, fields, arithmetics (Laplacian, bracket, gradient)", "why_tests_cant": "Independence of far away cells is a statement about all pairs of fields that agree nearby.", "anchors": ["src/hw2d/gradients/numpy_gradients.py:periodic_laplace_N", "src/hw2d/gradients/numba_gradients.py:periodic_laplace_N", "src/hw2d/gradients/numpy_gradients.py:periodic_gradient", "src/hw2d/poisson_bracket/numpy_arakawa.py:periodic_arakawa_vec", "src/hw2d/poisson_bracket/numba_arakawa.py:periodic_arakawa_stencil"]}
{"id": "C144", "title": "The bracket combines pairs of modes", "statement": "The Poisson bracket has no part in a mode to which no mode of its first and mode of its second argument add up (on the grid, with aliasing). Wave numbers up to a and c therefore give wave numbers up to a + c. Fields with modes in a set closed under sums keep to it for any number of steps of the full model, and so does the potential. Refuted for sets that are not closed: from modes with k = 0 or l = 0 one step excites (1, 1).", "quantifier": "all grid sizes, fields, sets of modes, parameters, backends, step sizes, numbers of steps", "why_tests_cant": "Which modes exchange energy is a statement about all pairs of modes; a test would see only rounding noise in the modes that must stay empty of particular runs.", "anchors": ["src/hw2d/poisson_bracket/numpy_arakawa.py:periodic_arakawa_vec", "src/hw2d/model.py:HW.gradient_2d", "src/hw2d/model.py:HW.rk4_step", "src/hw2d/model.py:HW.euler_step"]}
{"id": "C145", "title": "Energy, enstrophy and fluxes as sums over modes", "statement": "get_energy, get_enstrophy, get_gamma_c and get_gamma_n of a frame are sums over the Fourier modes: the energy of mode (k, l) is half of |n_kl|^2 + (sin(2 pi k/ny)^2 + sin(2 pi l/nx)^2)/dx^2 |phi_kl|^2 per cell squared, the flux of the mode is sin(2 pi k/ny)/dx times the phase difference term of n_kl and phi_kl. Parts of a state without common modes (such as the zonal flow and the rest) therefore contribute separately, and the values of the whole are the sums of the values of the parts. Refuted for parts with a common mode.", "quantifier": "all stacks of frames, grid sizes, fields, dx <> 0, c1", "why_tests_cant": "Which parts of a state may be measured separately is a statement about all fields; a test fixes the fields and compares rounded sums.", "anchors": ["src/hw2d/physical_properties/numpy_properties.py:get_energy", "src/hw2d/physical_properties/numpy_properties.py:get_enstrophy", "src/hw2d/physical_properties/numpy_properties.py:get_gamma_c", "src/hw2d/physical_properties/numpy_properties.py:get_gamma_n"]}
{"id": "C146", "title": "The unit of length", "statement": "Without coupling (c1 = 0) lengths have no scale: with spacing s dx, viscosity s^(2N) nu, background gradient kappa / s and the same bracket coefficient, any number of Runge-Kutta or Euler steps gives exactly the density and vorticity of the run with spacing dx, and s^2 times its potential. Refuted with coupling: c1 compares the potential with the density and fixes the length.", "quantifier": "all grids, parameters with c1 = 0, states, factors s, backends, step sizes and numbers of steps", "why_tests_cant": "That every term uses dx with its right power, in every branch and for every N, concerns all spacings and orders; a test fixes a few.", "anchors": ["src/hw2d/model.py:HW.gradient_2d", "src/hw2d/model.py:HW.rk4_step", "src/hw2d/model.py:HW.euler_step", "src/hw2d/model.py:HW.get_phi"]}
{"id": "C147", "title": "Without a background gradient nothing grows", "statement": "With kappa = 0, c1 >= 0 and nu >= 0, any bracket coefficient, any order of hyper-diffusion and either form of the coupling, the energy never increases along an exact solution, and neither does the enstrophy (for every c1). Runge-Kutta steps of the code up to any fixed time add at most a term of fourth order in dt to either. Refuted with a gradient (both can grow with coupling and viscosity off), and refuted for Euler steps (one step can raise the energy without a gradient).", "quantifier": "all grids, spacings, parameters with kappa = 0, initial states, final times, backends", "why_tests_cant": "Whether any nonlinear state can gain energy from the bracket, the coupling or the viscosity is a sign statement about all states; runs only show some.", "anchors": ["src/hw2d/model.py:HW.gradient_2d", "src/hw2d/model.py:HW.rk4_step", "src/hw2d/model.py:HW.euler_step", "src/hw2d/physical_properties/numpy_properties.py:get_energy", "src/hw2d/physical_properties/numpy_properties.py:get_enstrophy"]}
{"id": "C148", "title": "The gradient bounds the growth", "statement": "With c1 >= 0 and nu >= 0 the energy of an exact solution grows at most like exp(|kappa| t), whatever the grid, spacing, bracket coefficient, coupling, viscosity and its order; the enstrophy gains at most E(0) (exp(|kappa| t) - 1). At every state the tendencies the code computes raise either by at most |kappa| times the energy per unit time. Runge-Kutta steps of the code obey the same bounds up to any fixed time, up to a term of fourth order in dt. Refuted for negative c1, where the energy can grow without a gradient.", "quantifier": "all grids, positive spacings, parameters with c1 >= 0 and nu >= 0, states, final times, backends", "why_tests_cant": "A bound on the growth rate of every nonlinear state, uniform in grid and parameters, is not something sampled runs can establish.", "anchors": ["src/hw2d/model.py:HW.gradient_2d", "src/hw2d/model.py:HW.rk4_step", "src/hw2d/physical_properties/numpy_properties.py:get_energy", "src/hw2d/physical_properties/numpy_properties.py:get_enstrophy"]}
{"id": "C149", "title": "Strong viscosity ends everything", "statement": "With c1 >= 0, nu >= 0 and N >= 1 the energy of the deviations from the mean density changes at most like exp((|kappa| - 2 nu (4 sin(pi/max(ny,nx))^2/dx^2)^N) t) along exact solutions, whatever the bracket coefficient and the coupling. So above the threshold every deviation dies out, after a time that depends on the initial energy only. Runge-Kutta steps of the code obey the same bound up to any fixed time, up to a term of fourth order in dt. Refuted for the energy with the mean density included: a uniform density is not damped in zonal mode.", "quantifier": "all grids, positive spacings, parameters with c1 >= 0, nu >= 0 and N >= 1, states, final times, backends", "why_tests_cant": "That no nonlinear state sustains itself above an explicit threshold concerns all states and all times.", "anchors": ["src/hw2d/model.py:HW.gradient_2d", "src/hw2d/model.py:HW.diffuse", "src/hw2d/model.py:HW.rk4_step", "src/hw2d/physical_properties/numpy_properties.py:get_energy"]}
{"id": "C150", "title": "The reported flux is at most the reported energy", "statement": "For all fields on any stack of frames, |get_gamma_n| <= get_energy in every frame. Flux and energy are equal exactly when the density is minus the central difference of the potential along y and the potential has no central difference along x; flux and minus the energy are equal exactly when the density is plus it. Refuted when a derivative of another spacing is handed to get_gamma_n.", "quantifier": "all densities, potentials, grids, spacings and leading shapes", "why_tests_cant": "An inequality between two diagnostics for all fields, with all cases of equality, cannot be sampled.", "anchors": ["src/hw2d/physical_properties/numpy_properties.py:get_gamma_n", "src/hw2d/physical_properties/numpy_properties.py:get_energy"]}
{"id": "C151", "title": "Viscosity makes n - omega uniform", "statement": "With kappa = 0, nu >= 0 and N >= 1 the spread of n - omega around its mean decays at least like exp(-2 nu (4 sin(pi/max(ny,nx))^2/dx^2)^N t) along exact solutions, for every c1 of either sign, every bracket coefficient and both forms of the coupling. Runge-Kutta steps of the code obey the same bound up to any fixed time, up to a term of fourth order in dt. Refuted with a gradient, which can make the spread grow.", "quantifier": "all grids, positive spacings, parameters with kappa = 0, nu >= 0 and N >= 1, states, final times, backends", "why_tests_cant": "That coupling and bracket cannot feed n - omega holds for all nonlinear states or not; runs only show some.", "anchors": ["src/hw2d/model.py:HW.gradient_2d", "src/hw2d/model.py:HW.diffuse", "src/hw2d/model.py:HW.rk4_step", "src/hw2d/physical_properties/numpy_properties.py:get_enstrophy"]}
