{
 "claims": [
  {
   "property": "C01",
   "status": "proved",
   "theorems": [
    "C01_cache_coherent"
   ],
   "note": ""
  },
  {
   "property": "C02",
   "status": "proved",
   "theorems": [
    "C02_isolation",
    "C02_calls_preserve_caller_arrays",
    "C02_caller_writes_invisible"
   ],
   "note": "heap model with explicit addresses refines by-value semantics"
  },
  {
   "property": "C03",
   "status": "proved",
   "theorems": [
    "C03_read_before_write",
    "C03_set_rejections"
   ],
   "note": ""
  },
  {
   "property": "C04",
   "status": "proved",
   "theorems": [
    "C04_roundtrip_spectral",
    "C04_roundtrip_temporal",
    "C04_api_roundtrip",
    "C04_parseval"
   ],
   "note": ""
  },
  {
   "property": "C05",
   "status": "partial",
   "theorems": [
    "C05_toggle_refuted",
    "C05_toggle_partial"
   ],
   "note": "REFUTED by the code as stated: set_is_envelope(False) drops the imaginary part but leaves the cached spectrum valid; holds when set_is_envelope(False) is not called with both representations cached"
  },
  {
   "property": "C06",
   "status": "proved",
   "theorems": [
    "C06_construction_iff",
    "C06_axes",
    "C06_mode_layout"
   ],
   "note": ""
  },
  {
   "property": "C07",
   "status": "proved",
   "theorems": [
    "C07_xyt_samples",
    "C07_whenever_constructed",
    "C07_real_rejected"
   ],
   "note": "construction succeeds and samples the profile; energy factor as documented; real-valued profiles are refused"
  },
  {
   "property": "C08",
   "status": "proved",
   "theorems": [
    "C08_rt_modes",
    "C08_too_few_angles",
    "C08_any_profile",
    "C08_aliasing",
    "C08_interpolates"
   ],
   "note": ""
  },
  {
   "property": "C09",
   "status": "proved",
   "theorems": [
    "C09_normalize_energy",
    "C09_construction_energy"
   ],
   "note": "for every laser reachable through any history with successful resamplings"
  },
  {
   "property": "C10",
   "status": "proved",
   "theorems": [
    "C10_normalize_field"
   ],
   "note": ""
  },
  {
   "property": "C100",
   "status": "proved",
   "theorems": [
    "C100_ends",
    "C100_order",
    "C100_error",
    "C100_resolved",
    "C100_merge"
   ],
   "note": "Binary64 rounding to nearest even (Flocq, gradual underflow); overflow outside the model. C100_merge shows the resolution condition is needed."
  },
  {
   "property": "C101",
   "status": "proved",
   "theorems": [
    "C101_accuracy",
    "C101_energy",
    "C101_energy_error",
    "C101_field",
    "C101_weights",
    "C101_exact"
   ],
   "note": "Standard model of rounding: relative error at most u per operation, any summation tree; no overflow or underflow. C101_exact: at u = 0 it is the exact model."
  },
  {
   "property": "C102",
   "status": "proved",
   "theorems": [
    "C102_weights",
    "C102_range"
   ],
   "note": "Rate of convergence M*r with M uniform in the resolution; the second theorem gives the same for any resolution up to w0 and any range of waists. Profiles are given by their field function (analytic with offsets 0: see C55 for the refutation with offsets)."
  },
  {
   "property": "C103",
   "status": "proved",
   "theorems": [
    "C103_mirror",
    "C103_symmetric",
    "C103_solver",
    "C103_analysis"
   ],
   "note": "The solver is an argument; its mirror-symmetry is a hypothesis, met by the exact angular-spectrum solver (C103_solver). C103_analysis: get_duration and get_spectrum (method sum)."
  },
  {
   "property": "C104",
   "status": "proved",
   "theorems": [
    "C104_scale",
    "C104_rejects",
    "C104_analysis",
    "C104_frequency",
    "C104_gaussian",
    "C104_combined",
    "C104_elements",
    "C104_solver"
   ],
   "note": "The solver is an argument; that it has no built-in length is a hypothesis, met by the Huygens sum / exact angular spectrum (C104_solver)."
  },
  {
   "property": "C105",
   "status": "proved",
   "theorems": [
    "C105_mirror",
    "C105_symmetric",
    "C105_solver",
    "C105_analysis"
   ],
   "note": "Non-vacuity: C105_nonvacuous, C105_analysis_nonvacuous. C105_analysis: get_duration and get_spectrum (methods sum and on_axis)."
  },
  {
   "property": "C106",
   "status": "proved",
   "theorems": [
    "C106_transpose",
    "C106_symmetric",
    "C106_solver",
    "C106_spectrum"
   ],
   "note": "Image extents excluded (always taken from the first axis: C32). Non-vacuity: C106_nonvacuous, C106_spectrum_nonvacuous. C106_spectrum: get_spectrum with all its options."
  },
  {
   "property": "C107",
   "status": "proved",
   "theorems": [
    "C107_moved",
    "C107_full_field",
    "C107_frequency",
    "C107_solver"
   ],
   "note": "Cartesian lasers, all histories, any solver that reads only the samples (angular spectrum method proved to be one). Delays of cylindrical lasers: C93_time_origin"
  },
  {
   "property": "C11",
   "status": "partial",
   "theorems": [
    "C11_intensity_refuted",
    "C11_failure_harmless_partial"
   ],
   "note": "REFUTED: normalize(I,'intensity') raises AssertionError for every non-zero field (laser_utils.py passes a scalar to set_temporal_field); the partial theorem shows the failing call is harmless"
  },
  {
   "property": "C12",
   "status": "proved",
   "theorems": [
    "C12_none_noop",
    "C12_zero_noop",
    "C12_unknown_kind"
   ],
   "note": ""
  },
  {
   "property": "C13",
   "status": "proved",
   "theorems": [
    "C13_energy_formula_xyt",
    "C13_energy_formula_rt",
    "C13_nonneg",
    "C13_quadratic",
    "C13_definite_xyt",
    "C13_angular_average"
   ],
   "note": ""
  },
  {
   "property": "C14",
   "status": "proved",
   "theorems": [
    "C14_cell_volumes"
   ],
   "note": ""
  },
  {
   "property": "C15",
   "status": "proved",
   "theorems": [
    "C15_pointwise_xyt",
    "C15_pointwise_rt",
    "C15_order_irrelevant",
    "C15_unit_element"
   ],
   "note": ""
  },
  {
   "property": "C16",
   "status": "proved",
   "theorems": [
    "C16_phase_only_conserves",
    "C16_aperture_never_increases",
    "C16_shipped_elements",
    "C16_volumes_nonneg"
   ],
   "note": ""
  },
  {
   "property": "C17",
   "status": "proved",
   "theorems": [
    "C17_elements_symmetric",
    "C17_modewise_is_3d"
   ],
   "note": ""
  },
  {
   "property": "C18",
   "status": "proved",
   "theorems": [
    "C18_mirrors",
    "C18_spectral_phases",
    "C18_axiparabola",
    "C18_axicon",
    "C18_phases"
   ],
   "note": ""
  },
  {
   "property": "C19",
   "status": "proved",
   "theorems": [
    "C19_window",
    "C19_time_window_all_histories"
   ],
   "note": ""
  },
  {
   "property": "C20",
   "status": "proved",
   "theorems": [
    "C20_compose",
    "C20_reverse"
   ],
   "note": "for every solver obeying the semigroup law (hypotheses per_frequency, additive, zero_step; instance: angular spectrum)"
  },
  {
   "property": "C21",
   "status": "proved",
   "theorems": [
    "C21_cache_never_stale",
    "C21_any_backends",
    "C21_cache_fresh"
   ],
   "note": "every history whose resampling calls succeed; equality with rebuilding for one backend, or for any mixture of backends that compute the same (backend_independent; instance: angular spectrum); freshness of the cache for any backends"
  },
  {
   "property": "C22",
   "status": "proved",
   "theorems": [
    "C22_energy_conserved"
   ],
   "note": "for every unitary solver (instance: angular spectrum)"
  },
  {
   "property": "C23",
   "status": "partial",
   "theorems": [
    "C23_failed_resampling_loses_pulse_refuted",
    "C23_plain_failure_harmless_partial",
    "C23_boundary_failure_harmless_partial"
   ],
   "note": "REFUTED: a resampling propagate that raises has already replaced self.grid (laser.py:252-257), the pulse is lost; proved for all failures without resampling and for nr_boundary failures"
  },
  {
   "property": "C24",
   "status": "partial",
   "theorems": [
    "C24_resample_partial",
    "C24_same_dt_consistent_partial",
    "C24_stale_time_step_refuted",
    "C24_mode_labels_refuted"
   ],
   "note": "REFUTED: dx of the time axis stays that of the new grid, and components are matched by position so fewer modes means wrong labels; everything else proved"
  },
  {
   "property": "C25",
   "status": "proved",
   "theorems": [
    "C25_absorbing_layer",
    "C25_rejected"
   ],
   "note": ""
  },
  {
   "property": "C26",
   "status": "proved",
   "theorems": [
    "C26_numbering",
    "C26_same_arguments",
    "C26_failure",
    "C26_other_files",
    "C26_location"
   ],
   "note": "any history, any io obeying io_law (touches only its file, also when the write fails half-way); contents theorem for formats without underscore, name distinctness for same arguments without that condition"
  },
  {
   "property": "C27",
   "status": "proved",
   "theorems": [
    "C27_same_field",
    "C27_any_grid",
    "C27_real_grid_refuted"
   ],
   "note": "proved for envelope grids (every Laser); write_to_openpmd_file called directly on a real (is_envelope=False) rt grid loses the sine components (C27_real_grid_refuted)"
  },
  {
   "property": "C28",
   "status": "proved",
   "theorems": [
    "C28_roundtrip"
   ],
   "note": "theta=None, envelope data, the default path of FromOpenPMDProfile; openpmd_viewer/openPMD-api modelled as returning what was stored with axis offset+i*spacing"
  },
  {
   "property": "C29",
   "status": "partial",
   "theorems": [
    "C29_xyt",
    "C29_xyt_reject",
    "C29_rt_even_partial",
    "C29_rt_reject",
    "C29_rt_odd_refuted",
    "C29_rt_three_refuted"
   ],
   "note": "REFUTED for odd numbers of radial samples (>=5 raises ValueError, 3 silently mixed). Proved in full for Cartesian data and for even radial sizes."
  },
  {
   "property": "C30",
   "status": "partial",
   "theorems": [
    "C30_planes_partial",
    "C30_below_partial",
    "C30_refuted"
   ],
   "note": "REFUTED: rows below the axis show angle -theta, not theta+pi. Proved: upper half exact for every theta and mode content; lower half right iff stated cases (cos theta = 0 or one mode); counterexample with a vortex."
  },
  {
   "property": "C31",
   "status": "proved",
   "theorems": [
    "C31_show",
    "C31_show_xyt",
    "C31_show_centre"
   ],
   "note": "All mode contents, any reachable rt laser."
  },
  {
   "property": "C32",
   "status": "partial",
   "theorems": [
    "C32_slices_partial",
    "C32_edges_refuted",
    "C32_extent_refuted"
   ],
   "note": "REFUTED: slice=+-0.5 are not the edge slices and the extent for slice_axis='x' is that of the x axis. Proved: which slice is returned for every s, centre for s=0, SliceY extent right, data exact."
  },
  {
   "property": "C33",
   "status": "partial",
   "theorems": [
    "C33_xyt",
    "C33_rt_partial",
    "C33_omega0_required",
    "C33_rt_refuted"
   ],
   "note": "Complete for xyt (any history). REFUTED for rt with several modes: only mode 0 is summed (vortex: zero spectrum, positive energy); proved equal to the mode-0 energy, hence to the energy for one mode."
  },
  {
   "property": "C34",
   "status": "proved",
   "theorems": [
    "C34_values",
    "C34_affine",
    "C34_scale"
   ],
   "note": ""
  },
  {
   "property": "C35",
   "status": "proved",
   "theorems": [
    "C35_bounds",
    "C35_monochromatic",
    "C35_chirp",
    "C35_mean"
   ],
   "note": ""
  },
  {
   "property": "C36",
   "status": "proved",
   "theorems": [
    "C36_roundtrip",
    "C36_direct"
   ],
   "note": "'No local frequency clipped' is stated on the values get_frequency returns; additionally the unwrapped phase must be well defined (no isolated zeros in time, no jump of exactly pi). C36_direct: the default direct=True conversion is minus the time derivative up to M dt^2."
  },
  {
   "property": "C37",
   "status": "partial",
   "theorems": [
    "C37_create_xyt_partial",
    "C37_axes_partial",
    "C37_create_rt_refuted",
    "C37_time_axis_refuted",
    "C37_frequency_refuted"
   ],
   "note": "REFUTED: create_grid rejects every 2-D cylindrical array; its check of the time axis (np.allclose with the default atol = 1e-8 s) lets every time axis of a laser pulse through, however non-uniform, and replaces it by a uniform one; field_to_envelope takes the phase of the real field instead of its Hilbert transform and reports frequency 0 for any centred cosine."
  },
  {
   "property": "C38",
   "status": "proved",
   "theorems": [
    "C38_init",
    "C38_length",
    "C38_expressions"
   ],
   "note": "A zero polarization (0/0 in the source) is excluded."
  },
  {
   "property": "C39",
   "status": "proved",
   "theorems": [
    "C39_pointwise",
    "C39_laws",
    "C39_rejections",
    "C39_dtype",
    "C39_zero"
   ],
   "note": "Expressions over + and * of any depth."
  },
  {
   "property": "C40",
   "status": "partial",
   "theorems": [
    "C40_iff_partial",
    "C40_reject_partial",
    "C40_refuted"
   ],
   "note": "REFUTED: np.allclose's absolute tolerance 1e-8 is metres here, so 800 nm + 805 nm is accepted. Proved: the exact acceptance condition."
  },
  {
   "property": "C41",
   "status": "proved",
   "theorems": [
    "C41_xyt",
    "C41_no_energy",
    "C41_rt"
   ],
   "note": "The energies of the parts are lost and no normalisation takes place: the field is exactly the pointwise combination."
  },
  {
   "property": "C42",
   "status": "proved",
   "theorems": [
    "C42_constructs",
    "C42_in_focus",
    "C42_modulus",
    "C42_argument_order"
   ],
   "note": ""
  },
  {
   "property": "C43",
   "status": "partial",
   "theorems": [
    "C43_gaussian_partial",
    "C43_super_gaussian_partial",
    "C43_order2_partial",
    "C43_cosine_partial",
    "C43_fwhm_gaussian_partial",
    "C43_fwhm_cosine_partial",
    "C43_fwhm_super_gaussian_refuted"
   ],
   "note": "REFUTED: with the documented tau of the super-Gaussian (tau = F/(sqrt(2) ln(2)^(1/n))) the intensity at F/2 from the peak is half the peak only for n = 2. Everything else in the statement is proved."
  },
  {
   "property": "C44",
   "status": "partial",
   "theorems": [
    "C44_azimuthal_partial",
    "C44_in_focus_partial",
    "C44_single_mode_partial",
    "C44_mirror_partial",
    "C44_mirror_refuted"
   ],
   "note": "REFUTED: out of focus the mode -m is the mirror image of the mode m only up to a phase (the Gouy phase uses m instead of abs(m)); the azimuthal dependence, the single-mode grid content and the in-focus mirror symmetry are proved."
  },
  {
   "property": "C45",
   "status": "partial",
   "theorems": [
    "C45_leaf_partial",
    "C45_set_offset_partial",
    "C45_sum_partial",
    "C45_scale_partial",
    "C45_composite_partial",
    "C45_composite_noop_partial",
    "C45_refuted"
   ],
   "note": "REFUTED: set_offset on a sum or a scaled profile has no effect. Proved for elementary profiles over every history."
  },
  {
   "property": "C46",
   "status": "partial",
   "theorems": [
    "C46_nodes_partial",
    "C46_outside_partial",
    "C46_between_partial",
    "C46_time_partial",
    "C46_rt_time_partial",
    "C46_rt_nodes_partial",
    "C46_rt_outside_partial",
    "C46_rt_between_partial",
    "C46_rt_axis_partial",
    "C46_time_first_refuted",
    "C46_time_first_raises_refuted",
    "C46_rt_time_first_raises_refuted",
    "C46_refuted",
    "C46_accepts_partial"
   ],
   "note": "REFUTED for time-first axes_order: the interpolator is built from the unswapped array (wrong values, or ValueError), and ['t','r'] always raises. Everything else is proved for the default axes order."
  },
  {
   "property": "C47",
   "status": "partial",
   "theorems": [
    "C47_nodes_partial",
    "C47_between_partial",
    "C47_linear_partial",
    "C47_window_partial",
    "C47_outside_refuted",
    "C47_decreasing_refuted",
    "C47_refuted"
   ],
   "note": "REFUTED: np.interp continues the edge values outside the window instead of zero, and decreasing times always raise ValueError at evaluation. The rest is proved."
  },
  {
   "property": "C48",
   "status": "partial",
   "theorems": [
    "C48_nodes_partial",
    "C48_norm_partial",
    "C48_outside_partial",
    "C48_constructs_partial",
    "C48_bijection_partial",
    "C48_shift_partial",
    "C48_mean_partial",
    "C48_refuted"
   ],
   "note": "REFUTED only for the last clause: the shift is rounded towards zero from n/2, so the pixel nearest the centre of mass may end up next to the central pixel. The rest is proved."
  },
  {
   "property": "C49",
   "status": "proved",
   "theorems": [
    "C49_translate",
    "C49_scale",
    "C49_transpose",
    "C49_range",
    "C49_d4_zero"
   ],
   "note": ""
  },
  {
   "property": "C50",
   "status": "proved",
   "theorems": [
    "C50_pair",
    "C50_result",
    "C50_injective",
    "C50_onto"
   ],
   "note": "get_zernike_nm over exact reals (sqrt, ceil); float rounding not modelled"
  },
  {
   "property": "C51",
   "status": "proved",
   "theorems": [
    "C51_radial",
    "C51_odd",
    "C51_edge",
    "C51_parity",
    "C51_mode",
    "C51_scaling",
    "C51_rank"
   ],
   "note": "the mode is the textbook polynomial at every point and every pupil"
  },
  {
   "property": "C52",
   "status": "proved",
   "theorems": [
    "C52_untouched",
    "C52_iterations",
    "C52_no_pass",
    "C52_unknown",
    "C52_consistent"
   ],
   "note": ""
  },
  {
   "property": "C53",
   "status": "partial",
   "theorems": [
    "C53_signed_partial",
    "C53_refuted_residual",
    "C53_refuted_limit",
    "C53_never",
    "C53_early"
   ],
   "note": "REFUTED: the stopping rule tests the SIGNED sum, so it can stop with an arbitrarily large absolute deviation, and it ignores max_iterations (can loop forever). Proved: the signed sum is within tolerance on return."
  },
  {
   "property": "C54",
   "status": "proved",
   "theorems": [
    "C54_plates",
    "C54_fm_ssd",
    "C54_gp_rpm_ssd",
    "C54_gp_isi",
    "C54_bound"
   ],
   "note": "documented sum for all five smoothing types, with exact phases for FM SSD (both directions on), shared delayed phase histories for GP RPM SSD and nearest-sample amplitudes for GP ISI (times non-negative, see C67)"
  },
  {
   "property": "C55",
   "status": "partial",
   "theorems": [
    "C55_window_partial",
    "C55_linear",
    "C55_waist",
    "C55_region",
    "C55_refuted_x",
    "C55_refuted_y",
    "C55_refuted_data",
    "C55_refuted_transposed",
    "C55_composite"
   ],
   "note": "REFUTED: the window is displaced by +x_offset while the beam is at -x_offset, y_offset is ignored (analytic) or mixed with x_offset (data), and x and y extents of data are swapped. Proved: window, linearity and waist selection without offsets"
  },
  {
   "property": "C56",
   "status": "proved",
   "theorems": [
    "C56_grid",
    "C56_laser"
   ],
   "note": ""
  },
  {
   "property": "C57",
   "status": "partial",
   "theorems": [
    "C57_frame_partial",
    "C57_refuted"
   ],
   "note": "REFUTED: composite profiles share their parts and set_offset mutates and returns the object, so a later set_offset on a part changes the composite. Proved: nothing else does."
  },
  {
   "property": "C58",
   "status": "partial",
   "theorems": [
    "C58_gaussian_partial",
    "C58_hermite_partial",
    "C58_laguerre_partial",
    "C58_laguerre_upto_partial",
    "C58_refuted"
   ],
   "note": "REFUTED for Laguerre-Gauss with m > 0 (the amplitude misses the factor (w0/w)^abs(m), and the Gouy phase uses m); proved for Gaussian, Hermite-Gauss, Laguerre-Gauss with m = 0, and for every m up to a factor depending on z only."
  },
  {
   "property": "C59",
   "status": "proved",
   "theorems": [
    "C59_order",
    "C59_central",
    "C59_bound",
    "C59_times",
    "C59_centre",
    "C59_constructs"
   ],
   "note": ""
  },
  {
   "property": "C60",
   "status": "partial",
   "theorems": [
    "C60_synthesis_partial",
    "C60_refuted"
   ],
   "note": "REFUTED: the ifft synthesises with exp(+i(w-w0)t), so that the spectrum is mirrored about the central frequency (and the frequency step 1/(dt(N-1)) differs from that of the transform). C60_synthesis_partial is the exact formula that holds, in general."
  },
  {
   "property": "C61",
   "status": "proved",
   "theorems": [
    "C61_orthonormal"
   ],
   "note": "Riemann integrals of Coquelicot"
  },
  {
   "property": "C62",
   "status": "proved",
   "theorems": [
    "C62_monotone"
   ],
   "note": "hypotheses on the solver (lawful) are met by the angular-spectrum method"
  },
  {
   "property": "C63",
   "status": "proved",
   "theorems": [
    "C63_period",
    "C63_mean_intensity"
   ],
   "note": ""
  },
  {
   "property": "C64",
   "status": "partial",
   "theorems": [
    "C64_refuted",
    "C64_partial"
   ],
   "note": "REFUTED: amplitudes (delta,0) pass the constructor's checks but give a 0/0 or x/0 modulation frequency and a field made of nan only; proved when both amplitudes are positive"
  },
  {
   "property": "C65",
   "status": "partial",
   "theorems": [
    "C65_refuted",
    "C65_no_radius",
    "C65_partial"
   ],
   "note": "REFUTED: only x[:,0,0] and y[0,:,0] are used, so on a cylindrical grid the field does not depend on the radius; proved on Cartesian grids"
  },
  {
   "property": "C66",
   "status": "proved",
   "theorems": [
    "C66_rms",
    "C66_edges"
   ],
   "note": ""
  },
  {
   "property": "C67",
   "status": "partial",
   "theorems": [
    "C67_refuted",
    "C67_wrap",
    "C67_frozen",
    "C67_isi_partial",
    "C67_rpm_partial"
   ],
   "note": "REFUTED: negative times index the ISI series from its end or raise IndexError, and freeze the RPM phases; proved for non-negative times"
  },
  {
   "property": "C68",
   "status": "partial",
   "theorems": [
    "C68_even_partial",
    "C68_refuted_odd",
    "C68_odd",
    "C68_width"
   ],
   "note": "REFUTED: fftshift is applied where ifftshift is needed, so odd lengths are displaced by one bin; and the full width is fwhm/pi (in frequency). Proved: Gaussian centred on 0 for even lengths"
  },
  {
   "property": "C69",
   "status": "proved",
   "theorems": [
    "C69_parity"
   ],
   "note": ""
  },
  {
   "property": "C70",
   "status": "partial",
   "theorems": [
    "C70_grids",
    "C70_lasers",
    "C70_envelope_partial",
    "C70_omega0_required",
    "C70_real",
    "C70_default",
    "C70_read_only",
    "C70_convention_partial",
    "C70_raw_refuted"
   ],
   "note": "REFUTED only for the phase of the raw spectrum of an envelope: it is the complex conjugate of the documented transform (C70_convention_partial), unlike that of a real field. Frequencies, amplitudes of every method, densities and read-only are proved in full. Remark: the docstring's density prefactor eps0 c/(2 pi) differs from the code's eps0 c/pi; the code's is the energy-consistent one (C33, C90)."
  },
  {
   "property": "C71",
   "status": "partial",
   "theorems": [
    "C71_energy_partial",
    "C71_refuted"
   ],
   "note": "REFUTED: the zero frequency is counted twice and the highest frequency is dropped (a constant field gives twice its energy). Proved: the exact balance, hence equality when these two components vanish."
  },
  {
   "property": "C72",
   "status": "proved",
   "theorems": [
    "C72_range",
    "C72_points",
    "C72_raw",
    "C72_empty"
   ],
   "note": ""
  },
  {
   "property": "C73",
   "status": "proved",
   "theorems": [
    "C73_rt",
    "C73_xyt",
    "C73_same",
    "C73_default",
    "C73_readonly"
   ],
   "note": "The time window is assumed non-empty (lo < hi); scipy interp1d is modelled for ascending axes. Which plane is shown is the matter of C30/C32."
  },
  {
   "property": "C74",
   "status": "proved",
   "theorems": [
    "C74_given",
    "C74_range",
    "C74_peak",
    "C74_real",
    "C74_outside",
    "C74_constructs"
   ],
   "note": "Detected frequency zero is outside the model (division by zero). The HDF5 datasets are the inputs of the model."
  },
  {
   "property": "C75",
   "status": "partial",
   "theorems": [
    "C75_xyt_partial",
    "C75_rt_partial",
    "C75_default",
    "C75_roundtrip_rt",
    "C75_roundtrip_axisymmetric",
    "C75_written_xyt",
    "C75_real_refuted"
   ],
   "note": "REFUTED: electric fields (is_envelope False or real data) are never accepted: in xyt only the first x slice of the envelope is kept (get_temporal_field()[0]) so FromArrayProfile raises, in rt create_grid raises. Proved for envelopes: values at all stored points for every axis order, in z or t; mean of both sides for a plane; default of is_envelope; round trip of write_to_file for cylindrical lasers (exact for one mode) and reduction to C28 for Cartesian ones. The viewer is modelled by its documented meaning."
  },
  {
   "property": "C76",
   "status": "proved",
   "theorems": [
    "C76_super_gaussian",
    "C76_orders",
    "C76_top_hat",
    "C76_jinc"
   ],
   "note": "J1 is given by its integral (scipy.special.jv taken as exact)."
  },
  {
   "property": "C77",
   "status": "proved",
   "theorems": [
    "C77_orthonormal",
    "C77_coefficients",
    "C77_energy"
   ],
   "note": "Improper integrals as limits over growing squares (ModeOrthoSpec); the Gaussian integral and the orthogonality of the Hermite polynomials are proved in GaussInt."
  },
  {
   "property": "C78",
   "status": "proved",
   "theorems": [
    "C78_export_read_only",
    "C78_default_axis",
    "C78_export_linear",
    "C78_modes",
    "C78_delay",
    "C78_roundtrip",
    "C78_import_linear",
    "C78_import_failure",
    "C78_delay_shifted",
    "C78_roundtrip_shifted",
    "C78_import_checks"
   ],
   "note": "axiprop (k_freq, Field_ft, t2z, z2t) is an oracle with contracts in ZSpec.v (locality, linearity, spectral decomposition, plane waves; for other z0, t0 a shift of the origin, whatever its sign convention); flat_axiprop meets them. With diffraction the round trip is not exact in the code and is not claimed."
  },
  {
   "property": "C79",
   "status": "proved",
   "theorems": [
    "C79_orthogonal"
   ],
   "note": "Integral over the plane in polar coordinates (limit over discs, PolarSpec.v); the moments of the Laguerre polynomials are computed exactly."
  },
  {
   "property": "C80",
   "status": "partial",
   "theorems": [
    "C80_gaussian_partial",
    "C80_laguerre_partial",
    "C80_refuted",
    "C77_orthonormal"
   ],
   "note": "REFUTED: a Laguerre-Gauss mode with m different from 0 has a power proportional to (1 + (z_foc/zR)^2)^m in absolute value of m, since r^m is not scaled by the waist w(z); exact formula proved for every p and m. It is constant for Gaussian profiles, for Laguerre-Gauss with m = 0 and for Hermite-Gauss (C77)."
  },
  {
   "property": "C81",
   "status": "proved",
   "theorems": [
    "C81_delay",
    "C81_group_delay"
   ],
   "note": "delay by n samples exact on the periodic time window; two-line group delay exact for every pair of DFT lines"
  },
  {
   "property": "C82",
   "status": "proved",
   "theorems": [
    "C82_gaussian",
    "C82_hermite",
    "C82_laguerre",
    "C82_image",
    "C82_collimated",
    "C82_laser"
   ],
   "note": "exact at the frequency matching the profile wavelength; the laser-level theorem is for GaussianProfile in xyt geometry"
  },
  {
   "property": "C83",
   "status": "partial",
   "theorems": [
    "C83_unique",
    "C83_mirror_partial",
    "C83_axicon_partial",
    "C83_axicon_refuted",
    "C83_axiparabola_partial",
    "C83_focal_range_partial",
    "C83_refuted"
   ],
   "note": "REFUTED: the parabolic mirror claim holds exactly. Axicon: the inclination of the rays is 2 tan(gamma/2), strictly between sin gamma and tan gamma for 0 < gamma < pi/2, so never exactly the angle gamma. Axiparabola: the focal distance starts at f0 and grows with r, but at r = R it is (f0+delta)/(1+(delta/f0)^3+(1+delta/f0) delta R^2/(8 f0^3)), always less than f0+delta."
  },
  {
   "property": "C84",
   "status": "partial",
   "theorems": [
    "C84_isolated_partial",
    "C84_programs_partial",
    "C84_new",
    "C84_shared_refuted",
    "C84_refuted",
    "C84_released_refuted"
   ],
   "note": "REFUTED: propagate(grid=g) stores the Grid object itself and shares the time-axis array of the old grid: two lasers propagated onto the same Grid object end with the same field (C84_shared_refuted, C84_refuted), and the Grid a laser leaves gets a time axis moved by d/c while its lo, hi stay (C84_released_refuted). Proved: independence of every laser, for all programs and interleavings, as long as no laser is resampled onto a Grid object that a laser is using."
  },
  {
   "property": "C85",
   "status": "partial",
   "theorems": [
    "C85_recover",
    "C85_amplitude",
    "C85_carrier_refuted"
   ],
   "note": "REFUTED: the returned frequency is 0 for a centred cosine, so the carrier is not removed (C85_carrier_refuted). Proved for every real field and size: the envelope reproduces the field and has the right modulus."
  },
  {
   "property": "C86",
   "status": "proved",
   "theorems": [
    "C86_xyt_energy",
    "C86_xyt_field",
    "C86_rt_energy",
    "C86_rt_field"
   ],
   "note": "first-order convergence with a grid-independent constant; the intensity is assumed Lipschitz on the box; on rt grids the azimuthal content is resolved (abs m < n_azimuthal_modes)"
  },
  {
   "property": "C87",
   "status": "proved",
   "theorems": [
    "C87_not_needed",
    "C87_missing",
    "C87_read_only",
    "C87_bounds",
    "C87_linear",
    "C87_recover",
    "C87_amplitude",
    "C87_profile_refuted"
   ],
   "note": "REFUTED only for FromOpenPMDProfile, which raises for every electric field with this option as without it (C75); everything about get_frequency and field_to_envelope is proved for every unwrapping function C87_profile_refuted records that FromOpenPMDProfile cannot use the option (see C75)."
  },
  {
   "property": "C88",
   "status": "proved",
   "theorems": [
    "C88_xyt",
    "C88_rt",
    "C88_gaussian_xyt",
    "C88_gaussian_rt"
   ],
   "note": "exact real arithmetic; intensity Lipschitz on the box; eps-N form of the limit"
  },
  {
   "property": "C89",
   "status": "proved",
   "theorems": [
    "C89_xyt",
    "C89_rt"
   ],
   "note": "exact real arithmetic; eps-box-N form of the double limit; the cylindrical box starts at r = 0"
  },
  {
   "property": "C90",
   "status": "proved",
   "theorems": [
    "C90_xyt",
    "C90_rt",
    "C90_gaussian_xyt",
    "C90_gaussian_rt"
   ],
   "note": "Non-axisymmetric rt profiles are excluded: there the code sums mode 0 only (C33_rt_refuted)."
  },
  {
   "property": "C91",
   "status": "proved",
   "theorems": [
    "C91_plane_waves_solve",
    "C91_bessel_waves_solve",
    "C91_xyt",
    "C91_xyt_waves",
    "C91_rt",
    "C91_rt_resample"
   ],
   "note": "The solver is an oracle with contracts exact_xyt and exact_rt (WaveSpec.v); instances wave_solvers. That axiprop meets the contract (in particular that it reads an extent and a number of points as the spacing extent over points minus one) is not checked."
  },
  {
   "property": "C92",
   "status": "proved",
   "theorems": [
    "C92_accepts_iff",
    "C92_stores"
   ],
   "note": "Beamlet counts, wavelength, focal length and apertures are taken as well-typed numbers."
  },
  {
   "property": "C93",
   "status": "proved",
   "theorems": [
    "C93_transfer",
    "C93_superposition",
    "C93_sum_of_profiles",
    "C93_time_origin",
    "C93_selection"
   ],
   "note": "any history without normalize, for a solver that is linear per frequency (Huygens / angular-spectrum instance given); superposition stated for profiles without requested energy"
  },
  {
   "property": "C94",
   "status": "proved",
   "theorems": [
    "C94_commute"
   ],
   "note": "any history without normalize, solver linear per frequency; PolynomialSpectralPhase is an instance"
  },
  {
   "property": "C95",
   "status": "proved",
   "theorems": [
    "C95_normalize",
    "C95_last",
    "C95_analysis",
    "C95_cells"
   ],
   "note": "solver linear per frequency; positive requested values; the last-normalization law for kind energy needs a non-zero energy"
  },
  {
   "property": "C96",
   "status": "proved",
   "theorems": [
    "C96_product_xyt",
    "C96_product_rt",
    "C96_unshaped",
    "C96_duration",
    "C96_amplitude"
   ],
   "note": "Product structure of combined profiles in both geometries over every history of spectral elements, normalizations and writes; get_duration sees only the longitudinal part (also across geometries); amplitude independence up to a constant phase. Non-vacuity: C96_history_ok, C96_nonvacuous."
  },
  {
   "property": "C97",
   "status": "proved",
   "theorems": [
    "C97_xyt",
    "C97_rt",
    "C97_hermite",
    "C97_gaussian",
    "C97_laguerre"
   ],
   "note": "limit amplitude sqrt(2E/(eps0 c P D)); general beams and pulses of Lipschitz intensity, with HG, Gaussian, LG beams and Gaussian, cosine pulses as instances"
  },
  {
   "property": "C98",
   "status": "proved",
   "theorems": [
    "C98_phase",
    "C98_rotation",
    "C98_analysis"
   ],
   "note": "For every linear solver (mode by mode in rt). Rotation: pulses whose azimuthal content fits the grid's modes."
  },
  {
   "property": "C99",
   "status": "proved",
   "theorems": [
    "C99_passive",
    "C99_ledger",
    "C99_elements"
   ],
   "note": "For every solver conserving the energy per frequency (instance: angular spectrum); no resampling onto a new grid."
  }
 ]
}