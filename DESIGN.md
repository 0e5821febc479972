# hw2d in Rocq: design

A formal model of the-rccg/hw2d and machine-checked theorems about it
(Rocq/Coq 8.16.1).  `properties.jsonl` states the properties in English,
`MANIFEST.json` maps each to its theorems, `seeded/LOG.jsonl` records the wrong
programs the theorems were tested against.

## Layers

| layer | files (`rocq/theories`) | content |
|---|---|---|
| arithmetic | `Num.v`, `Cplx.v` | a record of arithmetic operations *without laws* (`Num A`). Instances: reals `R`, rationals `Q`, IEEE binary64 (`SpecFloat`, computed by the kernel), complex numbers `R*R`. A theorem quantified over every `Num A` is a bit-for-bit statement: it cannot use any law, so it holds for floats, NaN and inf. |
| numpy | `NdArray.v` | n-dimensional arrays (shape and flat data), broadcasting, slicing, wrap padding, axis reductions; exceptions are values (`res`) |
| model | `Model*.v` | one Gallina function per Python function, branch by branch; every definition cites file and lines |
| spec | `Spec*.v` | small independent vocabulary of the statements: sums and means over a grid, neighbours, DFT, Runge-Kutta, contents of a recorded file |
| proofs | all other files | lemmas, no axioms, no admitted goals |
| properties | `Prop*.v` except `PropsFacts.v` | `Theorem ... exact lemma`, `Print Assumptions`, and an `Example` with a concrete case meeting the hypotheses |

Shapes are stored innermost axis first (x, y, ...), because every hw2d
operation addresses axes from the end.  A theorem named `..._refuted` shows
that a property one would expect is false of the code; the exact behaviour is
proved beside it where there is one.

## Numbers

* Bit-exact claims (C01, C02, C06, C07, file and driver theorems): every `Num A`.
* Algebraic claims: exact reals.  Rounding error is outside these theorems.
* Claims about rounding: binary64 (`SpecFloat`, round to nearest even, one rounding per
  operation: no fused multiply-add, no reordering).  C45, C52, C98 (refutation) are computed
  by the kernel; C96-C98 bound the rounding error of every input in range.
* `np.fft` is the exact discrete Fourier transform over `R*R`.
* Storing into float32 datasets is an arbitrary rounding function.

## Per property

| id | property | modelled | proof | file |
|---|---|---|---|---|
| C01 | Accelerated and plain hyper-Laplacian return the same bits | laplace, periodic_laplace_N of both numerical backends | over every `Num A` (no law used, so bit for bit): array after k shrinks of the padded loop = wrapped k-th plain iterate, induction on N | `PropGradients.v` |
| C02 | Accelerated and plain gradient agree; negative axes mean the same as positive ones | gradient / periodic_gradient, both backends, all axes | pointwise, over every `Num A` | `PropGradients.v` |
| C03 | Gradient and Laplacian: linear, mean-free, constant-annihilating | same over R | periodic sums are invariant under shifts | `PropGradients.v` |
| C04 | Summation by parts and ellipticity | same | summation by parts, reindexing | `PropGradients.v` |
| C05 | Hyper-diffusion always dissipates | HW.diffuse and the sign of nu in HW.__init__ | induction on N, splitting even and odd orders | `PropHW.v` |
| C06 | Batched evaluation equals frame-by-frame evaluation | arrays of any rank | equality of entries; a positive axis on a stack is refuted | `PropFrames.v`, `PropGradients.v` |
| C07 | All Arakawa implementations agree | every bracket, loop, vectorised, stencil, three-term | entrywise; bit-exact where the order of operations is the same, over R otherwise | `PropArakawa.v` |
| C08 | The bracket is bilinear, antisymmetric and kills constants | bracket over R | ring on the nine-point stencil | `PropArakawa.v` |
| C09 | The bracket conserves the mean, energy and enstrophy exactly | bracket over R | pairing of opposite neighbours, shift invariance of sums | `PropArakawa.v` |
| C10 | The bracket has the orientation and scale of d_x a d_y b - d_y a d_x b | bracket on products of waves / affine fields | ring, and trigonometric identities | `PropArakawa.v` |
| C11 | PhiML bracket agrees with the NumPy bracket | PhiML bracket | entrywise negation; agreement refuted | `PropArakawa.v` |
| C12 | The Fourier solver really inverts the spectral Laplacian | np.fft as exact DFT, solver with inf at the mean mode | inversion of the DFT from sums of roots of unity | `PropPoisson.v` |
| C13 | Numba and NumPy Poisson solvers agree on what the model feeds them | numba solver (1e14 at the mean mode) | difference is exactly one constant; vanishes after get_phi centres | `PropPoisson.v` |
| C14 | Numba frequency table equals numpy.fft.fftfreq up to the int16 limit | custom_fftfreq with int16 wrap | case analysis on n | `PropPoisson.v` |
| C15 | The Poisson solve is linear, real, symmetric, negative and shift-equivariant | solver | Parseval and linearity of the DFT | `PropPoisson.v` |
| C16 | The generic solver fourier_poisson_numpy | fourier_poisson_numpy with its meshgrid | broadcasting of shapes | `PropPoisson.v` |
| C17 | fourier_laplace is usable and is inverted by the solver | both fourier_laplace | NameError in every execution; inversion | `PropPoisson.v` |
| C18 | The time derivative is the Hasegawa-Wakatani right-hand side | hw2d_gradient, callbacks as a backend record | symbolic execution of the monadic program, then comparison with the continuous formula on the grid | `PropHW.v`, `PropTight.v` |
| C19 | rk4_step is classical RK4 on (density, omega) | rk4_step, euler_step on Namespaces | same, comparison with the textbook scheme | `PropHW.v` |
| C20 | rk4_step is fourth-order accurate | rk4_step | polynomial identities up to order 4, Lipschitz constants of the right-hand side on bounded sets, discrete Gronwall; limit of the global error over C^5 solutions | `PropHW.v` |
| C21 | Mean of density minus vorticity never drifts | steps | conservation by C03, C09; induction on steps | `PropHW.v` |
| C22 | Zonal mode removes the y-average from the coupling | zonal option | algebra of row means | `PropHW.v` |
| C23 | Enstrophy balance of the ideal system | get_dU_dt and the right-hand side | bracket conservation and summation by parts | `PropHW.v` |
| C24 | Energy balance of the ideal system and the sign of the viscous sink | get_dE_dt | same; viscous sink refuted by its exact discrepancy | `PropHW.v` |
| C25 | No preferred origin: stepping commutes with periodic shifts | step | every operator commutes with shifts | `PropHW.v` |
| C26 | Rest state and radial parity symmetry | step | zero state, mirror image; every operator is equivariant | `PropHW.v` |
| C27 | Namespace arithmetic | Namespace operators | induction on keys; reversed subtraction | `PropHW.v` |
| C28 | Profiling counters are exact | log of HW | count of log entries per step, for all numbers of steps | `PropHW.v` |
| C29 | Sign and zero set of the diagnostics | gamma_c, energy, enstrophy | sums of squares | `PropDiagnostics.v` |
| C30 | Flux invariances | gamma_n, gamma_c | bilinearity, summation by parts | `PropDiagnostics.v` |
| C31 | Spectral thermal energy equals the grid thermal energy | get_energy_N_spectrally | Parseval | `PropDiagnostics.v` |
| C32 | Spectral particle flux | get_gamma_n_spectrally | symmetry of the DFT of real fields; odd and non-square grids refuted | `PropDiagnostics.v` |
| C33 | Kinetic energies are ordered | get_energy, get_energy_V_spectrally | |sin x| <= |x| mode by mode | `PropDiagnostics.v` |
| C34 | The two enstrophies agree on consistent frames | get_enstrophy, get_enstrophy_phi | C12 | `PropDiagnostics.v` |
| C35 | Buffered writing loses, duplicates and reorders nothing | buffer dictionary and append_h5 | refinement to list append, induction on saves | `PropIO.v` |
| C36 | A crash loses fewer than one buffer of frames | trace of file operations, stop after any of them | invariant over the trace | `PropIO.v`, `PropRun.v` |
| C37 | The stored last state belongs to the last recorded time | update_last_state | same; partial flush refutes | `PropIO.v`, `PropRun.v` |
| C38 | Recorded times increase across continuation | clock of run and run2, continuation | induction on iterations; run refuted | `PropRun.v` |
| C39 | How many frames a fresh run records, and when | run_loop, recording condition | induction on iterations | `PropRun.v` |
| C40 | The first recorded potential is consistent with the first vorticity | potential of recorded frames | C68 | `PropRunHW.v` |
| C41 | An existing file is never destroyed unless asked | whole drivers, every crash point | preorder on files kept by every operation | `PropRun.v` |
| C42 | Continuing keeps the physics of the file | continue_h5_file | the physics read replaces the arguments; zonal and spacing refuted | `PropRun.v` |
| C43 | Batch size does not change computed properties | calculate_properties | induction on batches | `PropIO.v` |
| C44 | run needs an output path | output_path empty | UnboundLocalError in every execution | `PropRun.v` |
| C45 | run reaches the end time and never passes it; run2 stops at the end time up to rounding | number of steps | arithmetic on R/Q; witness in binary64 computed by the kernel | `PropRun.v` |
| C46 | run2 retries a failing step forever | retry loop | induction on attempts | `PropRun.v` |
| C47 | Down-sampling by pair means preserves the mean | mean/skip down-sampling | array lemmas for every rank | `PropDownsample.v` |
| C48 | median_downsampleNx down-samples | median_downsampleNx | identity for every array | `PropDownsample.v` |
| C49 | Saved frame shape matches the down-sampled field | round(n/f) in both places | same expression; empty results raise | `PropDownsample.v` |
| C50 | Fourier noise is normalised | normalise | mean and variance algebra | `PropInit.v` |
| C51 | get_2d_sine | get_2d_sine | trigonometry; shape refuted | `PropInit.v` |
| C52 | Uniform time axis has one entry per value | np.arange, get_uniform_x | arithmetic; binary64 witness | `PropPlot.v` |
| C53 | Zero line decision | is_zero_included | real inequalities | `PropPlot.v` |
| C54 | Movie pictures show the recorded rows | both movie functions | list of rows shown | `PropPlot.v` |
| C55 | Printing parameters | format_print_dict | list induction on columns and lines | `PropHelpers.v` |
| C56 | PhiML fourier_laplace with N > 1 is the N-fold spectral Laplacian | PhiML fourier_laplace | scale factor dx^(2N-2) | `PropPoisson.v` |
| C57 | The numpy and numba code paths simulate the same physics | numpy and numba backends | C01, C02, C07, C13 through the whole step | `PropHW.v` |
| C58 | Reported enstrophy rate is wrong with viscosity | get_dU_dt | exact discrepancy and witness | `PropHW.v` |
| C59 | Reported energy rate is wrong with zonal coupling | get_dE_dt, zonal | exact discrepancy and witness | `PropHW.v` |
| C60 | Reported rates ignore the gradient coefficient kappa | both rates, kappa | exact discrepancy and witness | `PropHW.v` |
| C61 | Phase-shift spectrum | get_delta_ky | argument of complex numbers | `PropDiagnostics.v` |
| C62 | A file of one driver can be continued with the other | a file of one driver under the other | witness runs computed by the kernel | `PropRun.v` |
| C63 | The progress bar of run2 shows the chosen property | postfix of the progress bar | every state | `PropRun.v` |
| C64 | A finished run2 has written every recorded frame | final flush of run2 | induction on iterations; witness | `PropRun.v` |
| C65 | adaptive_step_size only changes rounding | adaptive_step_size | sum of equal steps | `PropRun.v` |
| C66 | A file left by a crash can be continued consistently | files left by a crash | witness runs | `PropRun.v` |
| C67 | add_last_state can be switched on when continuing | add_last_state on an old file | witness run | `PropRun.v` |
| C68 | A simulation records the Runge-Kutta iterates and their properties | drivers with the HW physics plugged in | C18, C19, C35, C39, C43 composed | `PropRunHW.v` |
| C69 | Stopping and continuing gives the uninterrupted simulation | two runs in sequence | C68 twice, semigroup of steps | `PropRunHW.v` |
| C70 | continue_file=True keeps the existing file | force_recompute | the two runs are equal | `PropRun.v` |
| C71 | A run shorter than its buffer can be continued | buffer longer than the run | C37 and the zero check | `PropRunHW.v` |
| C72 | Fourier down-sampling is exact on resolved waves | fourier_downsample, scipy.signal.resample | finite Fourier series; sums of roots of unity | `PropDownsample.v`, `PropTight.v` |
| C73 | Runs from the user's arguments record the down-sampled Runge-Kutta iterates | argument processing of both drivers | C68 with the down-sampling of C72 | `PropDownsample.v` |
| C74 | Diagnostics of recorded frames equal those at full resolution | diagnostics on down-sampled frames | Parseval on band-limited fields; refuted otherwise | `PropDownsample.v` |
| C75 | Band limits of the Fourier noise act on squared frequencies | weight of get_fft_noise | bounds on the logistic function | `PropInit.v` |
| C76 | Initial fields of a run | init table | cases on init_type | `PropInit.v` |
| C77 | Times in time-trace plots | x-values of traces | list arithmetic | `PropPlot.v` |
| C78 | Window of the statistics in time-trace plots | t0_std window | index arithmetic; witnesses | `PropPlot.v` |
| C79 | Labels of time-trace plots | labels | every file | `PropPlot.v` |
| C80 | Cut-off of diverged traces and ticks | cut-off, ticks | real inequalities; witnesses | `PropPlot.v` |
| C81 | Playback speed of movies | fps and frame_steps | integer division bounds | `PropPlot.v` |
| C82 | Colour limits | colour limits | real inequalities | `PropPlot.v` |
| C83 | Image for a time | row of image.py | floor arithmetic | `PropPlot.v` |
| C84 | Colour map | get_extended_viridis | linear interpolation bounds; number of colours refuted | `PropPlot.v` |
| C85 | Names in plots | latex_format, metric_format | string lemmas, finite table | `PropHelpers.v` |
| C86 | plot_timeline | plot_timeline | NameError in every execution | `PropPlot.v` |
| C87 | Warning about a missing movie writer | writer warning | every list of writers | `PropPlot.v` |
| C88 | A file is described by its attributes | attributes | preorder on files at every crash point | `PropRunPlot.v` |
| C89 | Images, movies and time traces of a recorded run | plots of a file written by run.py | C68 with C54, C77, C83 | `PropRunPlot.v` |
| C90 | PhiML finite differences are the numpy ones | PhiML finite differences | pointwise over R | `PropPhiml.v` |
| C91 | Broken files are not continued | consistency check of continued files | cases of the check, no operation in the trace | `PropCheck.v` |
| C92 | A recorded file holds the documented datasets and no others | dataset names | preorder on files at every crash point | `PropSets.v` |
| C93 | Second-order accuracy of gradient, Laplacian and bracket | The gradient, Laplacian and bracket models on grids of real numbers. | Taylor expansions with bounded remainder (repeated mean value theorem) along x and then y; the N-fold Laplacian by induction over N with the discrete Laplacian acting on families of derivatives; the bracket by bilinearity, its odd terms cancelling. | `PropSmooth.v` |
| C94 | get_phi is exact on resolved waves | get_phi with both Poisson solvers. | Plane waves are eigenvectors of every even Fourier multiplier; the solver's symbol at a resolved bin is the continuous one. | `PropSmooth.v` |
| C95 | The right-hand side converges to the Hasegawa-Wakatani equations | gradient_2d with all its terms, both coupling variants, with and without a given potential. | C18 reduces the code to the discrete right-hand side; C93's expansions bound each term, and the average over y is bounded by a cell-centred quadrature argument on an antiderivative. | `PropSmooth.v` |
| C96 | Rounding errors of gradient, Laplacian and bracket | The gradient, Laplacian and bracket models on grids of binary64 numbers (NumF64: SpecFloat operations, round to nearest even, no fused operations). | SpecFloat operations are shown equal to Flocq's, whose error theorems give one relative and one absolute rounding error per operation; running error analysis of each stencil, the N-fold Laplacian by induction over N. | `PropRound.v` |
| C97 | Rounding errors of the right-hand side | gradient_2d of HW with both sets of schemes of model.py:34-50 in binary64; the Poisson solver is any function (the potential is given). | Evaluation of gradient_2d for any number type, then C96 for each term and the accumulation of the zonal average and of the final sum. | `PropRound.v` |
| C98 | Conservation by the bracket up to rounding | The five bracket routines in binary64. | C96's pointwise bound summed over the grid, with C09 for the exact bracket; the counterexample is computed in the kernel. | `PropRound.v` |
| C99 | Plane waves through every operator | The operator models on grids holding a plane wave; SpecWave.v has waves and symbols. | Addition theorems for sine and cosine at shifted cells; the DFT of a wave for the potential; the Arakawa bracket vanishes after expansion. | `PropWave.v` |
| C100 | Waves stay waves | rk4_step and euler_step of HW with both sets of schemes. | C19 reduces the program to the method applied to the right-hand side, C99 keeps the state a wave, linearity of the amplitude system collapses the stages to the series. | `PropWave.v` |
| C101 | Drift-wave instability | As C100. | The eigenvalues of the 2 x 2 complex system in closed form (square root of a complex number by real square roots); |growth factor|^2 > 1 by a polynomial inequality; upper bound on the real part of any eigenvalue; waves are determined by their samples because their mean square is. | `PropWave.v` |
| C102 | Stability limit of hyper-diffusion | HW with zero coupling, drift and bracket coefficient. | The step is a real Fourier multiplier with values in [-1, 1]; Parseval; alternating fields are eigenvectors of the five-point Laplacian. | `PropWave.v` |
| C103 | Defaults against the stability limit | HW with any parameters; ModelDefaults.v has the defaults of run.py and run2.py and the README's command; the object is built by the model of the drivers (C73). | Alternating fields are eigenvectors of every operator, the coupling cancels; bounds on pi from the standard library's Machin formula. | `PropWave.v` |
| C104 | Viscous sinks of the balance equations | numpy_properties.py:150-242 on stacks of frames. | Summation by parts gives the sign of the quadratic form of the N-fold Laplacian (as in C16); means over frames cell by cell. | `PropSinks.v` |
| C105 | Arithmetic of Namespaces | the operators of namespaces.py as those of ModelNamespace.v (dispatch of Python 3) on the dictionary operations of ModelHW.v; SpecNamespace.v says what key by key means. | Induction over the keys; numpy's broadcasting of equal shapes and of numbers. | `PropNamespace.v` |
| C106 | Helper files | io.py:130-170 on the file operations of ModelIO.v. | Induction over the list of names. | `PropIoExtra.v` |
| C107 | End of the drivers: movie, properties, plot | run.py:298-329 and run2.py:451-482 as ModelRunEnd.v around the drivers of ModelRun.v; movie.py and timetrace.py as in C86-C89. | The two readers leave the disk alone, so traces are compared step by step; no_props c is the run up to the movie; C89 lemmas give rows and titles; a separate invariant (NameFacts.v) says which datasets can exist. | `PropRunEnd.v` |
| C108 | End of run2: movie and comparison plot | run2.py:451-482 as ModelRunEnd.v; timetrace.py:235-370, movie.py:150-326 as ModelPlot.v. | The movie reads attributes, density and time only and calculate_properties keeps them (KeepFacts.v), so the movie can be evaluated on the final file; the comparison plot is evaluated in general from start indices and curves, then for the file of C68 (Run2Plot.v). | `PropRun2End.v` |
| C109 | One solution, and the run converges to it | model.py:248-353 and the drivers as before (ModelHW.v, ModelRun.v, ModelRunHW.v); with_step (SpecConv.v) changes the step_size argument. | The right-hand side is A y + B(y, y) with bounded A, B and (y, B(y, y)) = 0 because both bracket terms of the code conserve (OdeExist.v, HwExist.v). Picard iteration for the system cut off outside a ball, then a Gronwall bound in mean square shows the cut-off is never reached. Convergence is C20's global error with the constructed solution, for files through C68 (HwConv.v). | `PropConv.v` |
| C110 | The code converges to the Hasegawa-Wakatani equations | model.py:248-353 and the drivers as before. The equations themselves, smooth solutions and root mean square distances are in SpecSmooth.v and SpecPde.v, without grid stencils. | Energy estimate for the error of the semi-discrete system (PdeConv.v): the Arakawa bracket of the error with itself drops out (C09), hyperviscosity has a sign, the bracket of the potential's error with a smooth field is bounded by its gradient norm (PdeStab.v), and the Fourier Poisson solver with its exact symbol is bounded and second order consistent on samples because its symbol dominates a spectral gap that depends on the box only (SymbolFacts.v). Gronwall gives the constant; C109 adds the time steps and the files (PdeTop.v, PdeRun.v). | `PropPde.v` |
| C111 | What a diverged simulation leaves behind | run.py:258-291, run2.py:349-444 (ModelRun.v run_loop, run2_loop) with an arbitrary NaN test; the steps of model.py:248-303 in binary64 (NumF64). np.sum is any order and bracketing of additions (SpecDiverge.v sums). | Corollaries of the recording lemmas of the drivers (RunFull.v, Run2Props.v) with the stopping step identified; the last operation of a step adds something to each field, and adding keeps NaN and turns an infinity into itself or NaN (NanFacts.v). Witness: a toy simulation in DivergeWit.v. | `PropDiverge.v` |
| C112 | Names and lists of properties | run2.py:93-103, 163-173 (ModelPropArgs.v: the argument, its mutation, the shared default, one call), the driver run2 (ModelRun.v), the table of run2.py:43-58 (ModelRunHW.v property_fncs) and calculate_properties (ModelIO.v). | Induction over the calls for the default list; the creation of the file (RunFiles.v create_ok) followed by the failing first frame, or by an induction over the unrecorded steps; continue_h5_file on empty datasets; the split of a list at its first bad name (PropArgFacts.v, NameHW.v). Examples with a toy simulation. | `PropNames.v` |
| C113 | The benchmark compares kernels that agree | performance_comparison.py:8-85 (ModelBench.v): the kernels of each group, np.gradient along axis -2, the comparison of perfplot.bench, sizes and loop of main. | The kernels on grids are those of C01, C02, C07 and C13; the comparison is an entrywise inequality; for the converse a one-row ridge just below 1/1000 whose gradient exceeds the tolerance (BenchFacts.v). | `PropBench.v`, `PropTight.v` |
| C114 | Energy and enstrophy carried with the fields | model.py:149-166, 248-303 and numpy_properties.py (as for C18-C24): steps of a plasma with keys dE and dU. | Steps: symbolic execution of the stages keeping the numbers (AccountFacts.v). Ideal Euler: energy and enstrophy are quadratic forms whose mixed term is the reported rate. Rk4: the carried numbers are two more components of a quadratic system, to which the global error theorem of C20 applies; quadratic forms are Lipschitz on bounded sets and have the expected derivative along solutions (AccountOde.v). Refutation: alternating fields on two cells (AccountProps.v). | `PropAccount.v` |
| C115 | Binary64 simulations against the exact solution | model.py:264-303 with namespaces.py and the gradient, Arakawa and hyperdiffusion kernels of both schemes in binary64 (ModelSchemes.v); the solver is a parameter. | Rounding of one right-hand side: C97. Exact side: explicit Lipschitz and size bounds of the right-hand side in the maximum norm (RoundReal.v), boundedness of the inverse Laplacian from its finite Fourier sum. Step: the four stages with their roundings (RoundEval.v, RoundStep.v); many steps: discrete Gronwall; solution: added to the global error theorem of C20. The case is one cell, where the program's density differs from the exact step in the last place. | `PropRoundStep.v` |
| C116 | The row shown for a time, in binary64 | image.py:87-97, movie.py:131-133, 167-171, timetrace.py:143, 319 with numpy's floor_divide (npy_divmod) and CPython's round and int, on binary64 (ModelPlot64.v). | fmod is exact (integers); subtracting the remainder and dividing are one rounding each and land within a quarter of the integer quotient, so floor with the final correction returns it exactly (FloorFacts.v). The refutations are evaluated. | `PropPlot64.v` |
| C117 | The time axis of a plot, in binary64 | timetrace.py:51-56 at binary64 and np.arange (ModelPlot.v). | The quotient that fixes the length lies within a quarter of the number of values, so its ceiling is that number or one more; the slice cuts the latter. Elements by rounding-error accounting (AxisRound.v). | `PropPlot64.v`, `PropTight.v` |
| C118 | The image script: panels and file names | image.py:13-143 (ModelImage.v): the loop over the entries with its running limits, the three rows, the mean, the ticks, str.replace, str of an int and the slice [:-4]. | Panels by induction over the entries (ImageFacts.v); names by splitting off the last four characters of decimal numerals; the run by composing with C89's file of frames. | `PropImage.v` |
| C119 | The conservation test does not influence the simulation | model.py:240-440 with both values of TEST_CONSERVATION (ModelHW.v), Namespaces with the additional entries dE, dU. | The right-hand side is evaluated for both values (TestFacts.v); the sums of Namespaces follow the keys of the left operand, so the additional entries never reach the state; induction over the steps. | `PropRun64.v` |
| C120 | The file of a binary64 run against the exact solution | run.py:27-329 over binary64 (ModelRun64.v): the driver of ModelRun.v with rounded operations, float32 datasets as rounding to binary32, np.sum as a tree of additions in any order. | C115 for the fields of every step, C119 for the conservation test the driver leaves on, C68's driver theorem for the rows, Flocq's rounding theorems for float32 (F32Facts.v), induction over the tree for np.sum. | `PropRun64.v` |
| C121 | Rounding errors of the Fourier Poisson solvers | numpy_fourier_poisson.py:19-35 and numba_fourier_poisson.py:8-56 in binary64, operation by operation (ModelPoisson64.v): fftfreq, 16-bit frequencies, symbol, complex divisions by real and complex numbers (Smith's algorithm in NumPy), zero mode; fft2/ifft2 are parameters. | Relative error of the symbol (SymRound.v), error of the quotients and of the inverse transform (PoissonRound.v); get_phi and the settings of C115/C120 (FftRegime.v); pi is bounded by the enclosure of PiFacts.v; the case of two points in FftWit.v. | `PropPoisson64.v` |
| C122 | Visible part of time-trace plots; pictures of the script | timetrace.py:117, 121-230, 264-290, 293-415: limits of both axes, shared axes, names of the pictures, savefig as replacement of a file (ModelTrace.v). | Case analysis of the limits, folds of np.min over the curves, the files of C77-C80 (TraceFacts.v); counterexamples in TraceWit.v. | `PropTrace.v` |
| C123 | Rounding errors of the physical diagnostics, for every order of summation | numpy_properties.py:30-70, 104-147, 171-206 with np.mean over two axes as a sum in any order (a tree of additions) and a division, in binary64 (ModelProps64.v); equal to ModelProperties.v for row-by-row sums. | Error of a tree of additions by its depth, (1+u)^depth - 1 (Props64Facts.v); each diagnostic from the rounding lemmas of C103 (Props64Diag.v); Lipschitz bounds of the real diagnostics and C115 (Props64Sol.v); cases in Props64Wit.v. | `PropProps64.v` |
| C124 | Complete pictures of a movie | movie.py:93-128, 150-353: setup of the three panels, animate with its colour limits carried from picture to picture, frame selection, file name (ModelMovie.v over ModelPlot.v and ModelImage.v). | Panels by induction over the axes, limits by induction over the pictures (MovieFacts.v); runs through C89 (PropMovie.v). | `PropMovie.v`, `PropTight.v` |
| C125 | No preferred origin, up to the file | run.py, run2.py with the user's arguments (ModelRunHW.v, ModelArgs.v), the step (ModelHW.v), the properties, Fourier down-sampling (ModelDownsample.v). | Shifts and reflections commute with Fourier multipliers, differences, averages and scipy's resampling (MovedFacts.v, SymFacts.v); the iterates and the files by induction over steps and frames (MovedRun.v); the refutation on a 4 x 4 grid saved as 2 x 2 (PropMoved.v). | `PropMoved.v` |
| C126 | Why the bracket averages three Jacobians | jpp, jpx, jxp of the three modules (ModelArakawa.v; ModelJacobians.v for phiml_arakawa.py:21-81, which nothing calls). | Summation by parts on the periodic grid, and a two-cell witness for the converse (JacFacts.v, PropJacobians.v). | `PropJacobians.v` |
| C127 | What the printed profile says | model.py:63-168, 218-317 with the readings of the clock as an arbitrary sequence, the tables timings and calls and the frame of print_log (ModelProfile.v). | Erasing the times gives the model of ModelHW.v; every timed part is an interval of the clock inside the interval of its step (ProfFacts.v, ProfRun.v, PropProfile.v). | `PropProfile.v` |
| C128 | The uncoupled flow: c1 = 0 | model.py:63-216 as in C19 (ModelHW.v), for parameters with c1 = 0. | Bracket antisymmetric in its second argument and the potential; quadratic forms along solutions and steps (AccountOde.v), existence and fourth-order convergence (C109, C20) for the drift (IdealFacts.v, IdealProps.v, PropIdeal.v). | `PropIdeal.v` |
| C129 | Round trip through the two Laplacians | periodic_laplace, fourier_poisson_double (both backends), get_phi, get_energy, get_enstrophy, get_enstrophy_phi as in C02, C12, C13, C29, C34. | Both orders are one Fourier multiplier; Jordan's inequality and u^2 - sin^2 u <= u^4/3 bound it (TripFacts.v); Parseval for the energies (TripDiag.v, PropTrip.v). | `PropTrip.v` |
| C130 | Single precision Poisson solver | numpy_fourier_poisson.py:38-54 (ModelSingle.v): both casts to single precision with rounding to nearest even, exact arithmetic in between; values above 2^127 leave the model. | Flocq's rounding is nearest; the error of the input passes the solver, whose largest factor is the smallest squared wave number's inverse (SingleFacts.v, PropSingle.v). | `PropSingle.v` |
| C131 | Step size limit of the coupling | The same functions as C100; README.md:212-231 transcribed as a list (SpecCoupling.v). | phi - n and n - omega are eigenvectors of the amplitude equations when the drift term vanishes; the stability polynomial of C102; sums of two squares at least 1 or 2; damping at most 8.8, and at most 0.001 for the largest waves (CouplingFacts.v, PropCoupling.v). | `PropCoupling.v` |
| C132 | States that vary along x only | The same functions as C19. | Shift invariance of the solver makes the potential zonal; bracket and d_y vanish; induction over stages and steps for two systems agreeing on zonal states (ZonalFacts.v, PropZonal.v). | `PropZonal.v` |
| C133 | Transport of y-averages | The same functions as C18. | Summation by parts along y in the three forms of Arakawa's bracket; the remaining terms telescope (ZonalFlux.v, PropZonal.v). | `PropZonal.v` |
| C134 | Exact cancellation in double precision | The same functions as C96 and C97, in SpecFloat's binary64. | Rounding is odd and exact on representable numbers (Flocq), so the terms of the nine-point kernel cancel in the order in which they are added; equality up to the sign of zero is a congruence for the other terms (CancelFacts.v, CancelTop.v, PropCancel.v). | `PropCancel.v` |
| C135 | Step size limit of advection | The same functions as C18 and C19. | Cauchy-Schwarz over the eight neighbours, each weighted by a difference of potentials (jac_norm); skewness of the bracket gives all inner products of its powers, so the square of the Runge-Kutta polynomial is explicit (AdvectFacts.v, AdvectTop.v, PropAdvect.v). | `PropAdvect.v` |
| C136 | Units of amplitude and time; small amplitudes | The same functions as C18 and C19. | Homogeneity of each term, carried through a step and through m steps; for small amplitudes the step is a polynomial in the bracket coefficient with bounded remainder on a bounded set (ScaleFacts.v, ScaleTop.v, PropScale.v). | `PropScale.v` |
| C137 | Arrays in memory | The step functions of ModelHW.v again, on references (ModelHeap.v), with the sites of in-place updates. | A refinement relation between programs in memory and programs on values, closed under sequencing; in-place updates only hit references allocated after entry (HeapFacts.v, HeapTop.v, HeapSteps.v, PropHeap.v). | `PropHeap.v` |
| C138 | A domain made of copies simulates one copy | The steps and diagnostics of the other properties, on two grids. | The transform of a repeated field lives on the multiples of a and b, where signed frequencies and symbols of both grids agree (TileFacts.v); stencils and averages commute with repetition; induction over the steps (TileFacts.v, TileTop.v, PropTile.v). | `PropTile.v` |
| C139 | Directions: turns, reflections and the background gradient | The steps and diagnostics of the other properties, on a grid and on the exchanged grid. | A relation 'T carries the system p to the system q', closed under composition, proved for the mirror in x, the mirror in y and the exchange of axes; the transforms are exchanged term by term (TurnFacts.v); then the steps for any such T (TurnFacts.v, TurnTop.v, PropTurn.v). | `PropTurn.v` |
| C140 | Constants in the fields evolve by themselves | The steps of the other properties. | Time derivatives of fields plus constants are those of the fields plus constants; the constants of the stages are added up (MeanFacts.v); means by summing the equations over the grid (MeanFacts.v, PropMean.v). | `PropMean.v` |
| C141 | Superposition and independent modes without the bracket | The steps of the other properties. | The right hand side is linear in the state; so are the stages (LinearFacts.v). A vanishing coefficient stays zero: every operator is a sum of shifts or a multiplier; applied to the difference of two runs (LinearFacts.v, PropLinear.v). | `PropLinear.v` |
| C142 | Files without the attributes of later versions | The readers of ModelPlot.v. | The readers use attributes and datasets only through a few accessors, which agree on both files; induction over the loops (PropOld.v). | `PropOld.v` |
| C143 | Which cells the operators look at | The operators of the other properties. | Induction on the order with the values of the stencils (C01, C02, C07); the impulse by the same induction; the potential of an impulse by its sixteen modes (PropReach.v). | `PropReach.v` |
| C144 | The bracket combines pairs of modes | The bracket and the steps of the other properties. | Convolution theorem of the discrete transform; the bracket is a sum of ten products of shifted fields; induction over stages and steps (TriadFacts.v, PropTriad.v). | `PropTriad.v` |
| C145 | Energy, enstrophy and fluxes as sums over modes | The diagnostics of the other properties. | Parseval's identity for two real fields, transform of central differences, orthogonality of fields without common modes (ModesFacts.v, PropModes.v). | `PropModes.v` |
| C146 | The unit of length | The steps of the other properties. | The right-hand sides of the two systems are the same function: each operator is homogeneous in dx (PropLength.v). | `PropLength.v` |
| C147 | Without a background gradient nothing grows | The steps and exact solutions of the other properties; energy and enstrophy as in SpecAccount.v. | Each term of the rate has a sign: the bracket drops out, the coupling is minus a mean of squares, the hyper-diffusion of n and of phi are sums over Fourier modes of one sign (DecayFacts.v); the steps follow from their fourth-order distance to the solution (PropDecay.v). | `PropDecay.v` |
| C148 | The gradient bounds the growth | The steps and exact solutions of the other properties; energy and enstrophy as in SpecAccount.v. | The flux is bounded by the energy because the central difference of phi has at most the spectral kinetic energy; the other terms have a sign (C147); then Gronwall (GrowthFacts.v, PropGrowth.v). | `PropGrowth.v` |
| C149 | Strong viscosity ends everything | The steps and exact solutions of the other properties; the energy of the deviations in SpecFade.v. | Every Fourier mode but the mean is damped at least at the rate of the slowest one, for n and for phi (FadeFacts.v); the flux bound of C148 does not see the mean; then integrate (PropFade.v). | `PropFade.v` |
| C150 | The reported flux is at most the reported energy | get_energy and get_gamma_n of ModelProperties.v. | Energy minus or plus flux is half the mean of (n +- d_y phi)^2 + (d_x phi)^2 (PropFlux.v). | `PropFlux.v` |
| C151 | Viscosity makes n - omega uniform | The steps and exact solutions of the other properties; the spread in SpecMix.v. | Coupling and bracket drop out of the rate of n - omega; every mode but the mean is damped at least like the slowest (MixFacts.v, PropMix.v). | `PropMix.v` |

## Trusted base

1. Coq's kernel (8.16.1) with its `vm_compute` conversion.  No kernel check is
   switched off, no plugin is loaded, nothing is extracted.
2. The axioms `Print Assumptions` lists, all from the standard library, all
   coming with `Reals` (and Coquelicot's use of classical logic on them):
   `ClassicalDedekindReals.sig_forall_dec`, `ClassicalDedekindReals.sig_not_dec`,
   `FunctionalExtensionality.functional_extensionality_dep`,
   `Classical_Prop.classic`.  The development declares none of its own.
3. The reading of the Python text into `Model*.v`.  The repository is never run:
   the model was checked by reading, by computed examples, and by mutation
   (`seeded/LOG.jsonl`).
4. The meaning of library calls, modelled from their documentation: numpy
   (broadcasting, slicing, `pad`, `mean`, `fft`, `arange`, `linspace`,
   `searchsorted`, `argmin`), scipy `signal.resample`, h5py datasets and
   attributes, PhiML convolution and spatial gradient.

### Print Assumptions of every property theorem

* **Closed under the global context (no axiom)** (170 theorems):
  C01 laplace_N_same_bits, laplace_N_value, laplace_value, negative_order_differs; C02 gradients_same_bits, negative_axes, value, other_axis_none, numba_negative_axis_none; C06 properties_framewise, dissipation_framewise, laplace_framewise, laplace_N_framewise, gradient_framewise, positive_axis_refuted; C07 same_bits, three_term_same_bits; C104 get_D; C105 reflected_refuted, order, order_number_left, key_error; C106 load, load_missing, load_no_file, create, create_twice, create_load, load_frames; C107 writer_refuted; C11 backends_agree_refuted; C111 run, run2, run2_unnoticed, refused, refused_refuted, sum, rk4_lost, euler_lost; C112 default, default_refuted, lists, no_list, string, call, first_frame, late_frame, stuck, run_zeros; C113 sizes; C118 single_refuted, name; C119 rk4, euler, dropped; C122 name; C123 model; C124 name; C127 clock_irrelevant, table, shares, no_steps, over_100_refuted, clock_back_refuted; C137 rk4, euler, run, retry, enstrophy_phi, copy_independent_refuted; C143 laplace, bracket, gradient; C27 add_keywise, add_key_error, scale_keywise, sub_is_reversed, sub_num_is_reversed; C28 profile_counts; C35 nothing_lost, index_in_range; C36 stop_between_saves, stop_anywhere, unequal_lengths_refuted, fresh_run_stopped, continued_run_stopped; C37 stored_state, current_when_divisible, state_lags_refuted, continue_reads; C38 run2_times_continue, run2_times_exact, run2_times_increase, run_restarts_clock, run_times_refuted, run_continued_twice_refuted; C39 fresh_file, recorded_entries, number_of_frames, recording_start, times_exact; C41 left_alone, left_alone_run2, rows_kept, rows_kept_run2; C42 arguments_ignored, arguments_ignored_run2, same_physics, zonal_dropped_refuted, spacing_refuted; C43 values, batch_size_irrelevant; C44 run_raises, run2_raises; C45 run_steps, run_makes_them, run2_steps, binary64_refuted; C46 never_progresses, run_raises, error_hidden_refuted; C47 entries, odd_rejected, two_axes, one_row, skip, skip_other_factors; C48 identity_refuted; C52 binary64_refuted; C55 table, width, nothing, empty, text_refuted, width_refuted; C62 run2_after_run_refuted, run_after_run2_refuted; C63 progress_always_zero; C64 run2_drops_buffer, initial_frame_lost_refuted; C65 adaptive_same_times; C66 state_and_age_disagree_refuted, datasets_out_of_step_refuted; C67 no_state_dataset_refuted; C70 force_wins, force_wins_run2, continue_ignored_refuted; C84 count_refuted, anchors, viridis_refuted; C85 metric, no_metric, unknown, bare_metric_refuted, duplicate_refuted; C87 writer_refuted; C88 run, run2, run_any, run2_any; C91 run, run2, error, continues; C92 run, run2, run_done, run2_done, state_run, state_run2
* **`ClassicalDedekindReals.sig_forall_dec`, `FunctionalExtensionality.functional_extensionality_dep`** (143 theorems):
  C03 laplace, gradient; C04 gradient_skew, laplace_selfadjoint_negative; C07 same_value; C08 bracket_algebra; C09 bracket_conserves; C10 orientation_and_scale; C102 rk4_factor; C104 values, DU_sink, DE_sink_refuted, DU_unsigned_refuted; C105 add, mul, div, sub_refuted, mul_div, sub_sub; C107 run_trace, run2_trace, run_crash, run2_crash, plain, order, dispatch; C108 order_run2, order_run; C11 phiml_bracket_is_negated; C113 intrinsic; C114 enstrophy_of_code; C116 exact_refuted, default_refuted; C117 arange_refuted, stuck_refuted; C118 image, ticks_refuted, plot_dict, coupled, distinct_refuted, said_refuted; C122 comparison, negative_refuted, traces, time, comparison_time, end_refuted, short_refuted, main_one_path, main_two_paths, main_fails, main_refuted; C123 rows; C124 equal, unequal, main, first, short_refuted, extra, start_refuted, name_refuted; C126 numba, numpy_phiml, mean, products, weights, only_mean, single_refuted, quadratics; C135 bracket_norm; C138 diagnostics; C139 diagnostics; C14 fftfreq_equal, fftfreq_differs_above, fftfreq_values; C140 factor; C142 plots, movie_fails, movie_refuted; C143 laplace_exact; C150 flux, given_derivative_refuted; C18 defaults; C22 zonal_transform, zonal_linear; C27 sub_refuted; C29 gamma_c, energy, enstrophy, values; C30 gamma_n_constants, gamma_n_antisymmetric, gamma_n_self, gamma_n_bilinear, gamma_c_common_field; C34 enstrophies_agree; C47 mean_kept, three_entries_refuted; C49 rounding; C52 uniform; C53 zero_line, zero_inside_refuted, mirror_refuted; C54 equal, equal_late, late_titles, far_late, first_row_refuted, unequal, unequal_beyond_end, start_ignored_refuted; C77 times, adaptive, short, times_refuted; C78 window, empty_window_refuted, adaptive_shift_refuted, early, early_refuted; C79 label_constant, label_refuted, comparison; C80 cut, cut_refuted, comparison_ticks, comparison_refuted; C81 playback; C82 symmetric, limit, coupled; C83 row, late, early, early_refuted; C84 unit; C86 timeline, timeline_refuted, timeline_drawn; C90 laplace_N, laplace_numpy, gradient, gradient_numpy
* **`ClassicalDedekindReals.sig_forall_dec`, `ClassicalDedekindReals.sig_not_dec`, `FunctionalExtensionality.functional_extensionality_dep`** (187 theorems):
  C05 diffusion_dissipates; C100 rk4_waves, euler_waves; C101 drift_waves_grow, no_faster_wave; C102 rk4_contracts, euler_contracts, rk4_checkerboard, euler_checkerboard; C103 checkerboard_full_system; C107 from_start, late, far_refuted; C108 from_start, adaptive, late_refuted, late_adaptive_refuted, short_refuted; C112 hw, poisoned; C113 gradient, laplace, bracket, poisson, poisson_refuted, main, default, dx_refuted, unknown; C114 rk4_carried, euler_carried, euler_ideal, energy_of_code_refuted, needs_test; C115 lipschitz; C118 run; C12 get_phi_inverts; C121 bound; C124 run; C125 shift, shift2, mirror, mirror2, between_refuted; C128 euler, euler_conserves_refuted, vorticity_alone, superposition, locked; C129 wave, test_sine, energy_refuted; C13 solvers_differ_by_mean, solvers_differ_times, get_phi_agree; C131 rk4, euler, rk4_stable, rk4_unstable, largest_scale; C132 stays_zonal, zonal_mode_rests, zonal_mode_diffuses, zonal_mode_decays, difference_rests; C133 zonal_transport; C135 steady_rows, steady_wave, rk4_change, euler_change, rk4_contracts, rk4_grows; C136 units, small_amplitudes, same_bracket_refuted; C137 schemes; C138 copies, wavenumbers; C139 reversed_gradient, half_turn, exchanged_axes, quarter_turn, axes_with_gradient_refuted; C140 constants, means, order_zero_refuted; C141 superposition, modes, bracket_refuted; C143 potential_refuted; C144 triads, band, sets, open_set_refuted; C145 modes, parts, common_mode_refuted; C146 length, coupled_refuted; C147 euler_refuted; C15 linear, real_part_loses_nothing, symmetric, negative, shift_equivariant, total; C16 square, nonsquare_raises; C17 numpy_fourier_laplace_refuted, numpy_fourier_laplace_never_returns, phiml_inverted_by_solver, phiml_solver_equals_numpy; C18 gradient_is_rhs, gradient_without_phi; C19 rk4_steps, euler_steps; C20 taylor_coefficients, taylor_coefficients_exist, linear_regime; C21 mean_difference_conserved; C22 zonal_means_conserved; C23 enstrophy_balance; C24 energy_balance_ideal, energy_discrepancy, viscous_dE_refuted; C25 shift_equivariance; C26 zero_state, mirror; C31 parseval; C32 even_square, odd_refuted, nonsquare_raises; C33 spectral_kinetic_energy; C40 potential_run, potential_run2, first_frame_refuted; C49 size, nothing_left; C51 value, bounded, shape_refuted, shape; C56 phiml_fourier_laplace, N_fold_refuted; C57 backends_same_run; C58 viscous_dU_refuted; C59 zonal_dE_refuted; C60 rates_ignore_kappa_refuted; C68 run, run2; C69 run2_same, run_same_fields, run2_any, zonal_lost_refuted, clock_restarts_refuted; C71 short_run, short_run2; C72 shape_and_rows, exact, filtered, filtered_x, filtered_y, mean, linear, refine, nyquist; C73 run, run2; C74 band_limited, general_refuted; C76 sine, draws, unknown, sine_periodic; C82 overshoot_refuted; C89 image, movie, movie_late, movie_none, traces; C94 get_phi_exact, get_phi_exact_numba; C99 gradient, laplace_N, get_phi, bracket, gradient_2d
* **`ClassicalDedekindReals.sig_forall_dec`, `ClassicalDedekindReals.sig_not_dec`, `Classical_Prop.classic`, `FunctionalExtensionality.functional_extensionality_dep`** (116 theorems):
  C103 run_defaults_unstable, other_defaults_below_limit; C109 exists, unique, dependence, rk4_converges, euler_converges, run_converges, run2_converges; C110 semi_discrete, rk4_steps, run, run2, run_limit, run2_limit, exact_solutions; C114 rk4_ideal, rk4_quadrature; C115 step, run, solution; C116 floordiv, image, multiple, start, nearest, movie; C117 axis; C120 f32, check, steps, solution; C121 numpy, numba, potential, regime, file, mean_refuted; C123 mean, gamma_n, gamma_c, energy, enstrophy, enstrophy_phi, DE, DU, solution; C128 solution, viscous, rk4; C129 round_trip, inverse_refuted, energy, enstrophy, enstrophy_no_density; C130 value, error, mean_free_refuted; C131 readme_table, readme_next_diverges; C134 bracket, constant, gradient, rhs, three_jacobians_refuted, columns_refuted, first_constant_refuted, self_refuted; C147 solution, rk4, gradient_refuted; C148 solution, rates, rk4, negative_refuted; C149 solution, dies_out, rk4, mean_refuted; C151 solution, rk4, gradient_refuted; C20 local_error, global_error, euler_global_error; C33 ordered; C50 normalised, nan, assertion, one_cell; C61 value_frame, value_series, in_phase, shift, bounded, single_frame_rows_refuted; C75 spectrum, kept, damped, short_waves_kept_refuted, long_waves_damped_refuted; C76 fourier, spectrum, sine_default_refuted; C93 gradient, laplace, bracket; C95 gradient_given_phi, gradient_solved; C96 gradient, laplace, bracket, gradient_total; C97 gradient_2d; C98 conservation, exact_refuted

## What is modelled

| source (`/repo/src/hw2d`) | model | left out or simplified |
|---|---|---|
| `gradients/*.py` | `ModelGradients.v`, `ModelPoisson.v` (fourier_laplace) | PhiML `laplace`, `gradient` (the periodic versions, which are the ones used, are modelled) |
| `poisson_bracket/*.py` | `ModelArakawa.v` | uninitialised memory of `np.empty_like` is an arbitrary array |
| `poisson_solvers/*.py` | `ModelPoisson.v` | single precision: the same text as double; two axes |
| `zonal_transform` | `ModelProperties.v` | |
| `physical_properties/numpy_properties.py` | `ModelProperties.v`, `ModelSpectral.v` | |
| `model.py` | `ModelHW.v`, `ModelBackend.v` | wall-clock timings, printing (`print_log`, debug output) |
| `utils/namespaces.py` | `ModelHW.v`, `ModelNamespace.v` (operators) | `copy`, `dtype`, attribute access; the bodies of the Python-2 methods `__div__`, `__rdiv__`; numpy arrays as operands |
| `utils/io.py` | `ModelIO.v` | chunking and compression options; one file per run |
| `utils/run_properties.py` | `ModelIO.v`, `ModelRunHW.v` | progress bar |
| `utils/downsample.py` | `ModelDownsample.v` | `np.median` (never reached: C48) |
| `run.py`, `run2.py` | `ModelRun.v` (drivers over any physics), `ModelRunHW.v` (the physics), `ModelArgs.v` (arguments), `ModelDefaults.v` (their defaults), `ModelRunEnd.v` (movie and plots at the end) | `fire`, the JIT warm-up; random draws are arbitrary numbers; run2's retry loop has a bound on attempts, quantified over |
| `initializations/*.py` | `ModelInit.v` | standard deviation zero is outside the model |
| `utils/plot/*.py` | `ModelPlot.v` | drawing: which rows, times, labels, limits and colours are modelled, matplotlib is not |
| `utils/helpers.py`, `utils/latex_format.py` | `ModelHelpers.v` | printing of numbers is an arbitrary function |
| `utils/performance_comparison.py` | `ModelBench.v` | without times |
| `__main__.py` | none | command line |

Simplifications inside a definition are stated in its comment.
