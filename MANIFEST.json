{
 "claims": [
  {
   "property": "C01",
   "status": "proved",
   "theorems": [
    "C01_laplace_N_same_bits",
    "C01_laplace_N_value",
    "C01_laplace_value",
    "C01_negative_order_differs"
   ],
   "note": ""
  },
  {
   "property": "C02",
   "status": "proved",
   "theorems": [
    "C02_gradients_same_bits",
    "C02_negative_axes",
    "C02_value",
    "C02_other_axis_none",
    "C02_numba_negative_axis_none"
   ],
   "note": ""
  },
  {
   "property": "C03",
   "status": "proved",
   "theorems": [
    "C03_laplace",
    "C03_gradient"
   ],
   "note": ""
  },
  {
   "property": "C04",
   "status": "proved",
   "theorems": [
    "C04_gradient_skew",
    "C04_laplace_selfadjoint_negative"
   ],
   "note": ""
  },
  {
   "property": "C05",
   "status": "proved",
   "theorems": [
    "C05_diffusion_dissipates"
   ],
   "note": ""
  },
  {
   "property": "C06",
   "status": "proved",
   "theorems": [
    "C06_properties_framewise",
    "C06_dissipation_framewise",
    "C06_laplace_framewise",
    "C06_laplace_N_framewise",
    "C06_gradient_framewise",
    "C06_positive_axis_refuted"
   ],
   "note": ""
  },
  {
   "property": "C07",
   "status": "proved",
   "theorems": [
    "C07_same_bits",
    "C07_three_term_same_bits",
    "C07_same_value"
   ],
   "note": ""
  },
  {
   "property": "C08",
   "status": "proved",
   "theorems": [
    "C08_bracket_algebra"
   ],
   "note": ""
  },
  {
   "property": "C09",
   "status": "proved",
   "theorems": [
    "C09_bracket_conserves"
   ],
   "note": ""
  },
  {
   "property": "C10",
   "status": "proved",
   "theorems": [
    "C10_orientation_and_scale"
   ],
   "note": ""
  },
  {
   "property": "C11",
   "status": "proved",
   "theorems": [
    "C11_phiml_bracket_is_negated",
    "C11_backends_agree_refuted"
   ],
   "note": "Property text: phiml bracket is the negative of the others. Agreement of the backends is refuted."
  },
  {
   "property": "C12",
   "status": "proved",
   "theorems": [
    "C12_get_phi_inverts"
   ],
   "note": ""
  },
  {
   "property": "C13",
   "status": "proved",
   "theorems": [
    "C13_solvers_differ_by_mean",
    "C13_solvers_differ_times",
    "C13_get_phi_agree"
   ],
   "note": ""
  },
  {
   "property": "C14",
   "status": "proved",
   "theorems": [
    "C14_fftfreq_equal",
    "C14_fftfreq_differs_above",
    "C14_fftfreq_values"
   ],
   "note": ""
  },
  {
   "property": "C15",
   "status": "proved",
   "theorems": [
    "C15_linear",
    "C15_real_part_loses_nothing",
    "C15_symmetric",
    "C15_negative",
    "C15_shift_equivariant",
    "C15_total"
   ],
   "note": ""
  },
  {
   "property": "C16",
   "status": "proved",
   "theorems": [
    "C16_square",
    "C16_nonsquare_raises"
   ],
   "note": ""
  },
  {
   "property": "C17",
   "status": "proved",
   "theorems": [
    "C17_numpy_fourier_laplace_refuted",
    "C17_numpy_fourier_laplace_never_returns",
    "C17_phiml_inverted_by_solver",
    "C17_phiml_solver_equals_numpy"
   ],
   "note": "numpy fourier_laplace refuted (NameError on every non-empty 2-D grid); PhiML variant inverted by the solver."
  },
  {
   "property": "C18",
   "status": "proved",
   "theorems": [
    "C18_gradient_is_rhs",
    "C18_gradient_without_phi",
    "C18_defaults"
   ],
   "note": ""
  },
  {
   "property": "C19",
   "status": "proved",
   "theorems": [
    "C19_rk4_steps",
    "C19_euler_steps"
   ],
   "note": ""
  },
  {
   "property": "C20",
   "status": "proved",
   "theorems": [
    "C20_taylor_coefficients",
    "C20_taylor_coefficients_exist",
    "C20_linear_regime",
    "C20_local_error",
    "C20_global_error",
    "C20_euler_global_error"
   ],
   "note": ""
  },
  {
   "property": "C21",
   "status": "proved",
   "theorems": [
    "C21_mean_difference_conserved"
   ],
   "note": ""
  },
  {
   "property": "C22",
   "status": "proved",
   "theorems": [
    "C22_zonal_transform",
    "C22_zonal_linear",
    "C22_zonal_means_conserved"
   ],
   "note": ""
  },
  {
   "property": "C23",
   "status": "proved",
   "theorems": [
    "C23_enstrophy_balance"
   ],
   "note": ""
  },
  {
   "property": "C24",
   "status": "proved",
   "theorems": [
    "C24_energy_balance_ideal",
    "C24_energy_discrepancy",
    "C24_viscous_dE_refuted"
   ],
   "note": "Energy balance proved for the ideal system; the reported rate is refuted for the viscous case with exact discrepancy."
  },
  {
   "property": "C25",
   "status": "proved",
   "theorems": [
    "C25_shift_equivariance"
   ],
   "note": ""
  },
  {
   "property": "C26",
   "status": "proved",
   "theorems": [
    "C26_zero_state",
    "C26_mirror"
   ],
   "note": ""
  },
  {
   "property": "C27",
   "status": "proved",
   "theorems": [
    "C27_add_keywise",
    "C27_add_key_error",
    "C27_scale_keywise",
    "C27_sub_is_reversed",
    "C27_sub_num_is_reversed",
    "C27_sub_refuted"
   ],
   "note": ""
  },
  {
   "property": "C28",
   "status": "proved",
   "theorems": [
    "C28_profile_counts"
   ],
   "note": ""
  },
  {
   "property": "C29",
   "status": "proved",
   "theorems": [
    "C29_gamma_c",
    "C29_energy",
    "C29_enstrophy",
    "C29_values"
   ],
   "note": ""
  },
  {
   "property": "C30",
   "status": "proved",
   "theorems": [
    "C30_gamma_n_constants",
    "C30_gamma_n_antisymmetric",
    "C30_gamma_n_self",
    "C30_gamma_n_bilinear",
    "C30_gamma_c_common_field"
   ],
   "note": ""
  },
  {
   "property": "C31",
   "status": "proved",
   "theorems": [
    "C31_parseval"
   ],
   "note": ""
  },
  {
   "property": "C32",
   "status": "proved",
   "theorems": [
    "C32_even_square",
    "C32_odd_refuted",
    "C32_nonsquare_raises"
   ],
   "note": "Even square grids proved; odd grids refuted for every odd size >= 3; non-square grids raise."
  },
  {
   "property": "C33",
   "status": "proved",
   "theorems": [
    "C33_ordered",
    "C33_spectral_kinetic_energy"
   ],
   "note": ""
  },
  {
   "property": "C34",
   "status": "proved",
   "theorems": [
    "C34_enstrophies_agree"
   ],
   "note": ""
  },
  {
   "property": "C35",
   "status": "proved",
   "theorems": [
    "C35_nothing_lost",
    "C35_index_in_range"
   ],
   "note": ""
  },
  {
   "property": "C36",
   "status": "proved",
   "theorems": [
    "C36_stop_between_saves",
    "C36_stop_anywhere",
    "C36_unequal_lengths_refuted",
    "C36_fresh_run_stopped",
    "C36_continued_run_stopped"
   ],
   "note": "Per-operation crash points of a flush, and crash points of whole fresh and continued runs; a stop inside append_h5 refutes equal lengths."
  },
  {
   "property": "C37",
   "status": "proved",
   "theorems": [
    "C37_stored_state",
    "C37_current_when_divisible",
    "C37_state_lags_refuted",
    "C37_continue_reads"
   ],
   "note": "Exact condition proved; refuted when the last flush is partial."
  },
  {
   "property": "C38",
   "status": "proved",
   "theorems": [
    "C38_run2_times_continue",
    "C38_run2_times_exact",
    "C38_run2_times_increase",
    "C38_run_restarts_clock",
    "C38_run_times_refuted",
    "C38_run_continued_twice_refuted"
   ],
   "note": "run2 proved; run refuted (clock restarts), with the exact times it records."
  },
  {
   "property": "C39",
   "status": "proved",
   "theorems": [
    "C39_fresh_file",
    "C39_recorded_entries",
    "C39_number_of_frames",
    "C39_recording_start",
    "C39_times_exact"
   ],
   "note": ""
  },
  {
   "property": "C40",
   "status": "proved",
   "theorems": [
    "C40_potential_run",
    "C40_potential_run2",
    "C40_first_frame_refuted"
   ],
   "note": "Proved for every frame of run and run2 but the initial one; refuted for frame 0."
  },
  {
   "property": "C41",
   "status": "proved",
   "theorems": [
    "C41_left_alone",
    "C41_left_alone_run2",
    "C41_rows_kept",
    "C41_rows_kept_run2"
   ],
   "note": ""
  },
  {
   "property": "C42",
   "status": "proved",
   "theorems": [
    "C42_arguments_ignored",
    "C42_arguments_ignored_run2",
    "C42_same_physics",
    "C42_zonal_dropped_refuted",
    "C42_spacing_refuted"
   ],
   "note": "Proved except zonal flag and grid spacing, both refuted."
  },
  {
   "property": "C43",
   "status": "proved",
   "theorems": [
    "C43_values",
    "C43_batch_size_irrelevant"
   ],
   "note": ""
  },
  {
   "property": "C44",
   "status": "proved",
   "theorems": [
    "C44_run_raises",
    "C44_run2_raises"
   ],
   "note": "Refuted expectation: proved that both drivers always raise UnboundLocalError."
  },
  {
   "property": "C45",
   "status": "proved",
   "theorems": [
    "C45_run_steps",
    "C45_run_makes_them",
    "C45_run2_steps",
    "C45_binary64_refuted"
   ],
   "note": "Exact arithmetic proved; binary64 witness refutes it for floating point."
  },
  {
   "property": "C46",
   "status": "proved",
   "theorems": [
    "C46_never_progresses",
    "C46_run_raises",
    "C46_error_hidden_refuted"
   ],
   "note": "Proved that run2 exhausts every number of retries; run raises."
  },
  {
   "property": "C47",
   "status": "proved",
   "theorems": [
    "C47_mean_kept",
    "C47_entries",
    "C47_odd_rejected",
    "C47_three_entries_refuted",
    "C47_two_axes",
    "C47_one_row",
    "C47_skip",
    "C47_skip_other_factors"
   ],
   "note": "Even sizes proved for every rank; the three-entry axis refutes the rejection of odd axes."
  },
  {
   "property": "C48",
   "status": "proved",
   "theorems": [
    "C48_identity_refuted"
   ],
   "note": "Refuted: identity proved for every array and factor."
  },
  {
   "property": "C49",
   "status": "proved",
   "theorems": [
    "C49_size",
    "C49_rounding",
    "C49_nothing_left"
   ],
   "note": "Sizes agree for every grid and factor with at least one cell left; otherwise ValueError."
  },
  {
   "property": "C50",
   "status": "proved",
   "theorems": [
    "C50_normalised",
    "C50_nan",
    "C50_assertion",
    "C50_one_cell"
   ],
   "note": ""
  },
  {
   "property": "C51",
   "status": "proved",
   "theorems": [
    "C51_value",
    "C51_bounded",
    "C51_shape_refuted",
    "C51_shape"
   ],
   "note": "Value and bounds proved; shape = grid_size refuted."
  },
  {
   "property": "C52",
   "status": "proved",
   "theorems": [
    "C52_uniform",
    "C52_binary64_refuted"
   ],
   "note": "Exact arithmetic; refuted in binary64."
  },
  {
   "property": "C53",
   "status": "proved",
   "theorems": [
    "C53_zero_line",
    "C53_zero_inside_refuted",
    "C53_mirror_refuted"
   ],
   "note": "Refuted with witness; exact condition proved."
  },
  {
   "property": "C54",
   "status": "proved",
   "theorems": [
    "C54_equal",
    "C54_equal_late",
    "C54_late_titles",
    "C54_far_late",
    "C54_first_row_refuted",
    "C54_unequal",
    "C54_unequal_beyond_end",
    "C54_start_ignored_refuted"
   ],
   "note": "Exact pictures for files started at 0 or m rows later; refutations for late files and the ignored start time."
  },
  {
   "property": "C55",
   "status": "proved",
   "theorems": [
    "C55_table",
    "C55_width",
    "C55_nothing",
    "C55_empty",
    "C55_text_refuted",
    "C55_width_refuted"
   ],
   "note": "Number formatting is an arbitrary function; terminal width optional."
  },
  {
   "property": "C56",
   "status": "proved",
   "theorems": [
    "C56_phiml_fourier_laplace",
    "C56_N_fold_refuted"
   ],
   "note": "Refuted with witness; exact scale factor proved."
  },
  {
   "property": "C57",
   "status": "proved",
   "theorems": [
    "C57_backends_same_run"
   ],
   "note": ""
  },
  {
   "property": "C58",
   "status": "proved",
   "theorems": [
    "C58_viscous_dU_refuted"
   ],
   "note": ""
  },
  {
   "property": "C59",
   "status": "proved",
   "theorems": [
    "C59_zonal_dE_refuted"
   ],
   "note": ""
  },
  {
   "property": "C60",
   "status": "proved",
   "theorems": [
    "C60_rates_ignore_kappa_refuted"
   ],
   "note": ""
  },
  {
   "property": "C61",
   "status": "proved",
   "theorems": [
    "C61_value_frame",
    "C61_value_series",
    "C61_in_phase",
    "C61_shift",
    "C61_bounded",
    "C61_single_frame_rows_refuted"
   ],
   "note": "Single-frame row count refuted (follows nx, not ny)."
  },
  {
   "property": "C62",
   "status": "proved",
   "theorems": [
    "C62_run2_after_run_refuted",
    "C62_run_after_run2_refuted"
   ],
   "note": "Refuted with witnesses."
  },
  {
   "property": "C63",
   "status": "proved",
   "theorems": [
    "C63_progress_always_zero"
   ],
   "note": "Proved for every state."
  },
  {
   "property": "C64",
   "status": "proved",
   "theorems": [
    "C64_run2_drops_buffer",
    "C64_initial_frame_lost_refuted"
   ],
   "note": "Exact content proved for every fresh run2; claim refuted by witness."
  },
  {
   "property": "C65",
   "status": "proved",
   "theorems": [
    "C65_adaptive_same_times"
   ],
   "note": ""
  },
  {
   "property": "C66",
   "status": "proved",
   "theorems": [
    "C66_state_and_age_disagree_refuted",
    "C66_datasets_out_of_step_refuted"
   ],
   "note": "Refuted with witnesses."
  },
  {
   "property": "C67",
   "status": "proved",
   "theorems": [
    "C67_no_state_dataset_refuted"
   ],
   "note": "Refuted with witnesses."
  },
  {
   "property": "C68",
   "status": "proved",
   "theorems": [
    "C68_run",
    "C68_run2"
   ],
   "note": "Both drivers, exact arithmetic with an arbitrary rounding when storing."
  },
  {
   "property": "C69",
   "status": "proved",
   "theorems": [
    "C69_run2_same",
    "C69_run_same_fields",
    "C69_run2_any",
    "C69_zonal_lost_refuted",
    "C69_clock_restarts_refuted"
   ],
   "note": "Positive part proved for zonal=False; the two failing parts (zonal lost, clock of run) refuted."
  },
  {
   "property": "C70",
   "status": "proved",
   "theorems": [
    "C70_force_wins",
    "C70_force_wins_run2",
    "C70_continue_ignored_refuted"
   ],
   "note": "Refuted for every existing file, plus a concrete file."
  },
  {
   "property": "C71",
   "status": "proved",
   "theorems": [
    "C71_short_run",
    "C71_short_run2"
   ],
   "note": "Refuted for every short run of either driver."
  },
  {
   "property": "C72",
   "status": "proved",
   "theorems": [
    "C72_shape_and_rows",
    "C72_exact",
    "C72_filtered",
    "C72_filtered_x",
    "C72_filtered_y",
    "C72_mean",
    "C72_linear",
    "C72_refine",
    "C72_nyquist"
   ],
   "note": "Exact arithmetic; scipy.signal.resample modelled from its documented definition."
  },
  {
   "property": "C73",
   "status": "proved",
   "theorems": [
    "C73_run",
    "C73_run2"
   ],
   "note": "Both drivers from argument processing to file content."
  },
  {
   "property": "C74",
   "status": "proved",
   "theorems": [
    "C74_band_limited",
    "C74_general_refuted"
   ],
   "note": "Band-limited case proved, general case refuted."
  },
  {
   "property": "C75",
   "status": "proved",
   "theorems": [
    "C75_spectrum",
    "C75_kept",
    "C75_damped",
    "C75_short_waves_kept_refuted",
    "C75_long_waves_damped_refuted"
   ],
   "note": "Spectrum and gain bounds proved; wavelength bounds refuted in both directions."
  },
  {
   "property": "C76",
   "status": "proved",
   "theorems": [
    "C76_fourier",
    "C76_spectrum",
    "C76_sine",
    "C76_draws",
    "C76_unknown",
    "C76_sine_periodic",
    "C76_sine_default_refuted"
   ],
   "note": "Periodicity of the default sine refuted."
  },
  {
   "property": "C77",
   "status": "proved",
   "theorems": [
    "C77_times",
    "C77_adaptive",
    "C77_short",
    "C77_times_refuted"
   ],
   "note": "Exact shift proved; refuted for late files."
  },
  {
   "property": "C78",
   "status": "proved",
   "theorems": [
    "C78_window",
    "C78_empty_window_refuted",
    "C78_adaptive_shift_refuted",
    "C78_early",
    "C78_early_refuted"
   ],
   "note": ""
  },
  {
   "property": "C79",
   "status": "proved",
   "theorems": [
    "C79_label_constant",
    "C79_label_refuted",
    "C79_comparison"
   ],
   "note": "Refuted for plot_timetraces, proved for the comparison."
  },
  {
   "property": "C80",
   "status": "proved",
   "theorems": [
    "C80_cut",
    "C80_cut_refuted",
    "C80_comparison_ticks",
    "C80_comparison_refuted"
   ],
   "note": ""
  },
  {
   "property": "C81",
   "status": "proved",
   "theorems": [
    "C81_playback"
   ],
   "note": ""
  },
  {
   "property": "C82",
   "status": "proved",
   "theorems": [
    "C82_symmetric",
    "C82_limit",
    "C82_coupled",
    "C82_overshoot_refuted"
   ],
   "note": ""
  },
  {
   "property": "C83",
   "status": "proved",
   "theorems": [
    "C83_row",
    "C83_late",
    "C83_early",
    "C83_early_refuted"
   ],
   "note": ""
  },
  {
   "property": "C84",
   "status": "proved",
   "theorems": [
    "C84_unit",
    "C84_count_refuted",
    "C84_anchors",
    "C84_viridis_refuted"
   ],
   "note": "The published viridis colours are written down in PropPlot.v (viridis12). Refuted parts: C84_count_refuted, C84_viridis_refuted."
  },
  {
   "property": "C85",
   "status": "proved",
   "theorems": [
    "C85_metric",
    "C85_no_metric",
    "C85_unknown",
    "C85_bare_metric_refuted",
    "C85_duplicate_refuted"
   ],
   "note": ""
  },
  {
   "property": "C86",
   "status": "proved",
   "theorems": [
    "C86_timeline",
    "C86_timeline_refuted",
    "C86_timeline_drawn"
   ],
   "note": "Refuted for all non-empty data."
  },
  {
   "property": "C87",
   "status": "proved",
   "theorems": [
    "C87_writer_refuted"
   ],
   "note": "Refuted."
  },
  {
   "property": "C88",
   "status": "proved",
   "theorems": [
    "C88_run",
    "C88_run2",
    "C88_run_any",
    "C88_run2_any"
   ],
   "note": "Closed under the global context; the crash versions need no hypotheses on the simulation."
  },
  {
   "property": "C89",
   "status": "proved",
   "theorems": [
    "C89_image",
    "C89_movie",
    "C89_movie_late",
    "C89_movie_none",
    "C89_traces"
   ],
   "note": "Exact arithmetic, run.py; storing rounds with an arbitrary function."
  },
  {
   "property": "C90",
   "status": "proved",
   "theorems": [
    "C90_laplace_N",
    "C90_laplace_numpy",
    "C90_gradient",
    "C90_gradient_numpy"
   ],
   "note": "pm.convolve and pm.spatial_gradient are modelled by their documented meaning."
  },
  {
   "property": "C91",
   "status": "proved",
   "theorems": [
    "C91_run",
    "C91_run2",
    "C91_error",
    "C91_continues"
   ],
   "note": "Closed under the global context."
  },
  {
   "property": "C92",
   "status": "proved",
   "theorems": [
    "C92_run",
    "C92_run2",
    "C92_run_done",
    "C92_run2_done",
    "C92_state_run",
    "C92_state_run2"
   ],
   "note": "Closed under the global context."
  },
  {
   "property": "C93",
   "status": "proved",
   "theorems": [
    "C93_gradient",
    "C93_laplace",
    "C93_bracket"
   ],
   "note": "Exact arithmetic; real-number axioms of the standard library."
  },
  {
   "property": "C94",
   "status": "proved",
   "theorems": [
    "C94_get_phi_exact",
    "C94_get_phi_exact_numba"
   ],
   "note": "Exact arithmetic; real-number axioms of the standard library."
  },
  {
   "property": "C95",
   "status": "proved",
   "theorems": [
    "C95_gradient_given_phi",
    "C95_gradient_solved"
   ],
   "note": "Exact arithmetic; real-number axioms of the standard library."
  },
  {
   "property": "C96",
   "status": "proved",
   "theorems": [
    "C96_gradient",
    "C96_laplace",
    "C96_bracket",
    "C96_gradient_total"
   ],
   "note": "Binary64 arithmetic of the standard library's SpecFloat; Flocq is used in proofs and adds no axioms beyond the standard library's."
  },
  {
   "property": "C97",
   "status": "proved",
   "theorems": [
    "C97_gradient_2d"
   ],
   "note": "Binary64 arithmetic of the standard library's SpecFloat; Flocq is used in proofs and adds no axioms beyond the standard library's."
  },
  {
   "property": "C98",
   "status": "proved",
   "theorems": [
    "C98_conservation",
    "C98_exact_refuted"
   ],
   "note": "Binary64 arithmetic of the standard library's SpecFloat; Flocq is used in proofs and adds no axioms beyond the standard library's."
  },
  {
   "property": "C99",
   "status": "proved",
   "theorems": [
    "C99_gradient",
    "C99_laplace_N",
    "C99_get_phi",
    "C99_bracket",
    "C99_gradient_2d"
   ],
   "note": "Exact real arithmetic."
  },
  {
   "property": "C100",
   "status": "proved",
   "theorems": [
    "C100_rk4_waves",
    "C100_euler_waves"
   ],
   "note": "Exact real arithmetic."
  },
  {
   "property": "C101",
   "status": "proved",
   "theorems": [
    "C101_drift_waves_grow",
    "C101_no_faster_wave"
   ],
   "note": "Exact real arithmetic."
  },
  {
   "property": "C102",
   "status": "proved",
   "theorems": [
    "C102_rk4_contracts",
    "C102_euler_contracts",
    "C102_rk4_checkerboard",
    "C102_euler_checkerboard",
    "C102_rk4_factor"
   ],
   "note": "Exact real arithmetic."
  },
  {
   "property": "C103",
   "status": "proved",
   "theorems": [
    "C103_checkerboard_full_system",
    "C103_run_defaults_unstable",
    "C103_other_defaults_below_limit"
   ],
   "note": "Exact real arithmetic; decimal literals stand for the reals they denote. The instability of run.py's defaults is a property of the shipped program."
  },
  {
   "property": "C104",
   "status": "proved",
   "theorems": [
    "C104_get_D",
    "C104_values",
    "C104_DU_sink",
    "C104_DE_sink_refuted",
    "C104_DU_unsigned_refuted"
   ],
   "note": "Exact real arithmetic, get_D in any arithmetic. That DE (and DU without the sign) is a sink is false of the program and refuted for all fields."
  },
  {
   "property": "C105",
   "status": "proved",
   "theorems": [
    "C105_add",
    "C105_mul",
    "C105_div",
    "C105_sub_refuted",
    "C105_reflected_refuted",
    "C105_order",
    "C105_order_number_left",
    "C105_key_error",
    "C105_mul_div",
    "C105_sub_sub"
   ],
   "note": "Values in exact real arithmetic; operand order, exceptions and keys in any arithmetic. Division of stored Python floats by zero is not distinguished from numpy's."
  },
  {
   "property": "C106",
   "status": "proved",
   "theorems": [
    "C106_load",
    "C106_load_missing",
    "C106_load_no_file",
    "C106_create",
    "C106_create_twice",
    "C106_create_load",
    "C106_load_frames"
   ],
   "note": "Any frame and number type; frames of a run in terms of file_frames (C68)."
  },
  {
   "property": "C107",
   "status": "proved",
   "theorems": [
    "C107_run_trace",
    "C107_run2_trace",
    "C107_run_crash",
    "C107_run2_crash",
    "C107_plain",
    "C107_order",
    "C107_from_start",
    "C107_late",
    "C107_far_refuted",
    "C107_dispatch",
    "C107_writer_refuted"
   ],
   "note": "Exact real arithmetic for times; that a late recording start is harmless is false and refuted. What matplotlib draws and writes is not modelled, only which rows, times and curves."
  },
  {
   "property": "C108",
   "status": "proved",
   "theorems": [
    "C108_order_run2",
    "C108_order_run",
    "C108_from_start",
    "C108_adaptive",
    "C108_late_refuted",
    "C108_late_adaptive_refuted",
    "C108_short_refuted"
   ],
   "note": "Exact real times. That every late recording start can be plotted is false and refuted; a recording start given as an int is not distinguished in the model (later_is_int takes a stored number for a float)."
  },
  {
   "property": "C109",
   "status": "proved",
   "theorems": [
    "C109_exists",
    "C109_unique",
    "C109_dependence",
    "C109_rk4_converges",
    "C109_euler_converges",
    "C109_run_converges",
    "C109_run2_converges"
   ],
   "note": "Exact real arithmetic; grid fixed. C20 assumed a solution, here it is constructed."
  },
  {
   "property": "C110",
   "status": "proved",
   "theorems": [
    "C110_semi_discrete",
    "C110_rk4_steps",
    "C110_run",
    "C110_run2",
    "C110_run_limit",
    "C110_run2_limit",
    "C110_exact_solutions"
   ],
   "note": "Exact real arithmetic. The existence of smooth solutions of the equations is a hypothesis; C110_exact_solutions gives a family. C' and the bound of the steps depend on the grid."
  },
  {
   "property": "C111",
   "status": "proved",
   "theorems": [
    "C111_run",
    "C111_run2",
    "C111_run2_unnoticed",
    "C111_refused",
    "C111_refused_refuted",
    "C111_sum",
    "C111_rk4_lost",
    "C111_euler_lost"
   ],
   "note": "The drivers for every simulation; the binary64 part for every set of numerical schemes, with fields that keep their shape."
  },
  {
   "property": "C112",
   "status": "proved",
   "theorems": [
    "C112_default",
    "C112_default_refuted",
    "C112_lists",
    "C112_no_list",
    "C112_string",
    "C112_call",
    "C112_first_frame",
    "C112_late_frame",
    "C112_stuck",
    "C112_hw",
    "C112_poisoned",
    "C112_run_zeros"
   ],
   "note": "Arguments that are lists, tuples or strings; other iterables are not modelled."
  },
  {
   "property": "C113",
   "status": "proved",
   "theorems": [
    "C113_intrinsic",
    "C113_gradient",
    "C113_laplace",
    "C113_bracket",
    "C113_poisson",
    "C113_poisson_refuted",
    "C113_main",
    "C113_default",
    "C113_dx_refuted",
    "C113_unknown",
    "C113_sizes"
   ],
   "note": "Exact arithmetic; times are not modelled; the comparison of perfplot is np.allclose with its default tolerances."
  },
  {
   "property": "C114",
   "status": "proved",
   "theorems": [
    "C114_rk4_carried",
    "C114_euler_carried",
    "C114_euler_ideal",
    "C114_rk4_ideal",
    "C114_rk4_quadrature",
    "C114_enstrophy_of_code",
    "C114_energy_of_code_refuted",
    "C114_needs_test"
   ],
   "note": "Exact arithmetic. The HW object's own dx equals the dx passed to the step. The conversion with get_energy is refuted, with the exact discrepancy of one Euler step."
  },
  {
   "property": "C115",
   "status": "proved",
   "theorems": [
    "C115_step",
    "C115_run",
    "C115_solution",
    "C115_lipschitz"
   ],
   "note": "The numpy and the jitted schemes are the two evaluation orders covered; the Poisson solver is an arbitrary function with error d (the FFT itself is not given a binary64 semantics). TEST_CONSERVATION off."
  },
  {
   "property": "C116",
   "status": "proved",
   "theorems": [
    "C116_floordiv",
    "C116_image",
    "C116_multiple",
    "C116_exact_refuted",
    "C116_default_refuted",
    "C116_start",
    "C116_nearest",
    "C116_movie"
   ],
   "note": "Times are np.float64 or ints exactly representable; h5py is trusted to return the attributes as stored. 'time k * frame_dt shows frame k' is false: C116_exact_refuted, C116_default_refuted."
  },
  {
   "property": "C117",
   "status": "proved",
   "theorems": [
    "C117_axis",
    "C117_arange_refuted",
    "C117_stuck_refuted"
   ],
   "note": "numpy's arange: length ceil((stop - start)/step), elements start, start + step, then start + i * (second - first)."
  },
  {
   "property": "C118",
   "status": "proved",
   "theorems": [
    "C118_image",
    "C118_ticks_refuted",
    "C118_run",
    "C118_plot_dict",
    "C118_coupled",
    "C118_single_refuted",
    "C118_name",
    "C118_distinct_refuted",
    "C118_said_refuted"
   ],
   "note": "matplotlib is a list of panels; imshow's default limits are the extremes of its data. Times in file names are non-negative ints (str of a float is not modelled); exact arithmetic for the row (binary64: C116). Refuted parts: C118_ticks_refuted, C118_single_refuted, C118_distinct_refuted, C118_said_refuted."
  },
  {
   "property": "C119",
   "status": "proved",
   "theorems": [
    "C119_rk4",
    "C119_euler",
    "C119_dropped"
   ],
   "note": "NumPy and Numba schemes; the solver is any function that returns arrays of the shape of the vorticity."
  },
  {
   "property": "C120",
   "status": "proved",
   "theorems": [
    "C120_f32",
    "C120_check",
    "C120_steps",
    "C120_solution"
   ],
   "note": "Potential solver with a given error d (C121 gives d for the Fourier solvers); the settings are those of C115 (far from overflow and underflow, dt times Lipschitz constant at most 1), values below 2^127 for float32, sums of at most 2^50 terms; properties=[] and no downsampling."
  },
  {
   "property": "C121",
   "status": "proved",
   "theorems": [
    "C121_numpy",
    "C121_numba",
    "C121_bound",
    "C121_potential",
    "C121_regime",
    "C121_file",
    "C121_mean_refuted"
   ],
   "note": "The FFT algorithms are parameters with a stated accuracy; everything around them (frequencies, symbol, complex division, zero mode) is the program in binary64. That the Numba solver removes the mean is refuted."
  },
  {
   "property": "C122",
   "status": "proved",
   "theorems": [
    "C122_comparison",
    "C122_negative_refuted",
    "C122_traces",
    "C122_time",
    "C122_comparison_time",
    "C122_end_refuted",
    "C122_short_refuted",
    "C122_main_one_path",
    "C122_main_two_paths",
    "C122_main_fails",
    "C122_main_refuted",
    "C122_name"
   ],
   "note": "matplotlib's automatic limits are any function with a margin around the data; exact reals; NaN is outside."
  },
  {
   "property": "C123",
   "status": "proved",
   "theorems": [
    "C123_model",
    "C123_rows",
    "C123_mean",
    "C123_gamma_n",
    "C123_gamma_c",
    "C123_energy",
    "C123_enstrophy",
    "C123_enstrophy_phi",
    "C123_DE",
    "C123_DU",
    "C123_solution"
   ],
   "note": "Two-dimensional float64 arrays, i.e. the fields of a run in memory (the full-resolution diagnostics of run2.py). calculate_properties and run.py work on float32 arrays read from the file; that arithmetic is outside. x**2 is x*x as in numpy."
  },
  {
   "property": "C124",
   "status": "proved",
   "theorems": [
    "C124_equal",
    "C124_unequal",
    "C124_main",
    "C124_first",
    "C124_run",
    "C124_short_refuted",
    "C124_extra",
    "C124_start_refuted",
    "C124_name_refuted",
    "C124_name"
   ],
   "note": "Exact reals. matplotlib is represented by its documented behaviour: imshow's automatic limits, the number of extra drawings before saving (any number), one drawing per picture. Number formatting in titles and names is abstract; the writer is outside."
  },
  {
   "property": "C125",
   "status": "proved",
   "theorems": [
    "C125_shift",
    "C125_shift2",
    "C125_mirror",
    "C125_mirror2",
    "C125_between_refuted"
   ],
   "note": "Exact reals, storing rounds with an arbitrary function (odd for the reflection); non-adaptive runs as in C68/C73."
  },
  {
   "property": "C126",
   "status": "proved",
   "theorems": [
    "C126_numba",
    "C126_numpy_phiml",
    "C126_mean",
    "C126_products",
    "C126_weights",
    "C126_only_mean",
    "C126_single_refuted",
    "C126_quadratics"
   ],
   "note": "Exact reals. phiml's subscripts are taken as positions along the dimensions in order, y first."
  },
  {
   "property": "C127",
   "status": "proved",
   "theorems": [
    "C127_clock_irrelevant",
    "C127_table",
    "C127_shares",
    "C127_no_steps",
    "C127_over_100_refuted",
    "C127_clock_back_refuted"
   ],
   "note": "Sums and quotients of the times are exact; the saving of run between the steps reads no clock of HW."
  },
  {
   "property": "C128",
   "status": "proved",
   "theorems": [
    "C128_solution",
    "C128_viscous",
    "C128_euler",
    "C128_euler_conserves_refuted",
    "C128_rk4",
    "C128_vorticity_alone",
    "C128_superposition",
    "C128_locked"
   ],
   "note": "Exact arithmetic; the plasma starts with the potential of its vorticity."
  },
  {
   "property": "C129",
   "status": "proved",
   "theorems": [
    "C129_round_trip",
    "C129_wave",
    "C129_test_sine",
    "C129_inverse_refuted",
    "C129_energy",
    "C129_energy_refuted",
    "C129_enstrophy",
    "C129_enstrophy_no_density"
   ],
   "note": "Exact arithmetic; dx > 0; numba for sides up to 65536."
  },
  {
   "property": "C130",
   "status": "proved",
   "theorems": [
    "C130_value",
    "C130_error",
    "C130_mean_free_refuted"
   ],
   "note": "Casts round as in IEEE 754; transforms and division between the casts are exact (numpy 1.x computes them in double precision)."
  },
  {
   "property": "C131",
   "status": "proved",
   "theorems": [
    "C131_rk4",
    "C131_euler",
    "C131_rk4_stable",
    "C131_rk4_unstable",
    "C131_largest_scale",
    "C131_readme_table",
    "C131_readme_next_diverges"
   ],
   "note": "Exact arithmetic; single waves, for which the bracket vanishes. The README's table is transcribed in SpecCoupling.v."
  },
  {
   "property": "C132",
   "status": "proved",
   "theorems": [
    "C132_stays_zonal",
    "C132_zonal_mode_rests",
    "C132_zonal_mode_diffuses",
    "C132_zonal_mode_decays",
    "C132_difference_rests"
   ],
   "note": "Exact arithmetic; the start carries the potential of its vorticity."
  },
  {
   "property": "C133",
   "status": "proved",
   "theorems": [
    "C133_zonal_transport"
   ],
   "note": "Exact arithmetic, any potential."
  },
  {
   "property": "C134",
   "status": "proved",
   "theorems": [
    "C134_bracket",
    "C134_constant",
    "C134_gradient",
    "C134_rhs",
    "C134_three_jacobians_refuted",
    "C134_columns_refuted",
    "C134_first_constant_refuted",
    "C134_self_refuted"
   ],
   "note": "Binary64 arithmetic as in C96; parallel reductions, fused multiply-add and fastmath re-association of compiled code are not modelled. The extensions are refuted with concrete fields."
  },
  {
   "property": "C135",
   "status": "proved",
   "theorems": [
    "C135_bracket_norm",
    "C135_steady_rows",
    "C135_steady_wave",
    "C135_rk4_change",
    "C135_euler_change",
    "C135_rk4_contracts",
    "C135_rk4_grows"
   ],
   "note": "Exact arithmetic. The limit is sufficient; it is not claimed to be the largest."
  },
  {
   "property": "C136",
   "status": "proved",
   "theorems": [
    "C136_units",
    "C136_small_amplitudes",
    "C136_same_bracket_refuted"
   ],
   "note": "Exact arithmetic; C136_same_bracket_refuted shows that the bracket coefficient has to be changed."
  },
  {
   "property": "C137",
   "status": "proved",
   "theorems": [
    "C137_rk4",
    "C137_euler",
    "C137_run",
    "C137_retry",
    "C137_schemes",
    "C137_enstrophy_phi",
    "C137_copy_independent_refuted"
   ],
   "note": "Any number type. Arrays local to the Poisson solvers are not in the heap; slices are only read. C137_copy_independent_refuted is the refutation."
  },
  {
   "property": "C138",
   "status": "proved",
   "theorems": [
    "C138_copies",
    "C138_wavenumbers",
    "C138_diagnostics"
   ],
   "note": "Exact arithmetic."
  },
  {
   "property": "C139",
   "status": "proved",
   "theorems": [
    "C139_reversed_gradient",
    "C139_half_turn",
    "C139_exchanged_axes",
    "C139_quarter_turn",
    "C139_axes_with_gradient_refuted",
    "C139_diagnostics"
   ],
   "note": "Exact arithmetic. C139_axes_with_gradient_refuted is the refutation."
  },
  {
   "property": "C140",
   "status": "proved",
   "theorems": [
    "C140_constants",
    "C140_means",
    "C140_factor",
    "C140_order_zero_refuted"
   ],
   "note": "Exact arithmetic. C140_order_zero_refuted is the refutation."
  },
  {
   "property": "C141",
   "status": "proved",
   "theorems": [
    "C141_superposition",
    "C141_modes",
    "C141_bracket_refuted"
   ],
   "note": "Exact arithmetic. C141_bracket_refuted is the refutation."
  },
  {
   "property": "C142",
   "status": "proved",
   "theorems": [
    "C142_plots",
    "C142_movie_fails",
    "C142_movie_refuted"
   ],
   "note": "C142_movie_fails, C142_movie_refuted: create_movie has no default."
  },
  {
   "property": "C143",
   "status": "proved",
   "theorems": [
    "C143_laplace",
    "C143_laplace_exact",
    "C143_bracket",
    "C143_gradient",
    "C143_potential_refuted"
   ],
   "note": "Laplacian, bracket and gradient in every arithmetic, exactness of the distance and the potential (C143_potential_refuted) in exact arithmetic."
  },
  {
   "property": "C144",
   "status": "proved",
   "theorems": [
    "C144_triads",
    "C144_band",
    "C144_sets",
    "C144_open_set_refuted"
   ],
   "note": "Exact arithmetic. C144_open_set_refuted is the refutation."
  },
  {
   "property": "C145",
   "status": "proved",
   "theorems": [
    "C145_modes",
    "C145_parts",
    "C145_common_mode_refuted"
   ],
   "note": "Exact arithmetic. C145_common_mode_refuted is the refutation."
  },
  {
   "property": "C146",
   "status": "proved",
   "theorems": [
    "C146_length",
    "C146_coupled_refuted"
   ],
   "note": "Exact arithmetic. C146_coupled_refuted is the refutation."
  },
  {
   "property": "C147",
   "status": "proved",
   "theorems": [
    "C147_solution",
    "C147_rk4",
    "C147_gradient_refuted",
    "C147_euler_refuted"
   ],
   "note": "Exact arithmetic. C147_gradient_refuted and C147_euler_refuted are the refutations."
  },
  {
   "property": "C148",
   "status": "proved",
   "theorems": [
    "C148_solution",
    "C148_rates",
    "C148_rk4",
    "C148_negative_refuted"
   ],
   "note": "Exact arithmetic. C148_negative_refuted is the refutation."
  },
  {
   "property": "C149",
   "status": "proved",
   "theorems": [
    "C149_solution",
    "C149_dies_out",
    "C149_rk4",
    "C149_mean_refuted"
   ],
   "note": "Exact arithmetic. C149_mean_refuted is the refutation."
  },
  {
   "property": "C150",
   "status": "proved",
   "theorems": [
    "C150_flux",
    "C150_given_derivative_refuted"
   ],
   "note": "Exact arithmetic. C150_given_derivative_refuted is the refutation."
  },
  {
   "property": "C151",
   "status": "proved",
   "theorems": [
    "C151_solution",
    "C151_rk4",
    "C151_gradient_refuted"
   ],
   "note": "Exact arithmetic. C151_gradient_refuted is the refutation."
  }
 ]
}