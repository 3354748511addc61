# Formal model of LASY-org/lasy in Rocq (Coq 8.16.1)

## 1. Approach

* **Numbers.** `complex128`/`float64` are modelled by exact reals `R` (Coq standard library) and
  Coquelicot's `C = R * R`.  Floating-point rounding is modelled only in C100 (binary64, Flocq) and C101 (relative error per operation); overflow nowhere.  nan/inf are
  represented only where finite inputs reach them in the code and a property talks about it
  (speckle frequencies, the Hermite-Gauss waist, the Gerchberg-Saxton ratio); elsewhere every
  division whose denominator the code does not guard appears as a hypothesis of the theorem.
* **Arrays.** `ndarray` = shape (list of nat) + dtype tag + total index function; theorems only
  speak about in-range indices.  One-dimensional axes are `list R`.
* **Exceptions** are values (`res A = Ok a | Err exn`).  Methods that mutate return the state
  reached also when they raise, so failure atomicity can be stated.
* **Objects and aliasing.** Grid, Laser and profiles are records threaded through calls.  Where
  identity matters there is a heap: `GridHeap` (arrays of a Grid and of the caller), `AnalyticModel`
  (transverse profiles that hold references to their parts), `GSModel` (deep-copied lasers).
* **Oracles.** axiprop solvers, random draws, the file system/openPMD libraries, scipy's `jv` and
  `hilbert` (except in C85, where it is `scipy_hilbert`) are arguments of the model.  Laws assumed about them are hypotheses in the theorem
  statement (`SolverSpec`, `FileSpec`, `GSSpec`), and an instance satisfying them is proved beside
  (angular-spectrum method `asm_solvers`, a store that writes one file).
* **Layout.** `*Model.v` (and `PyBase`, `NumPy`, `NpFFT`, `NpMath`, `LaserOps`, `GridHeap`) hold
  definitions only, each with the /repo file and lines it models.  `*Spec.v` hold the vocabulary of
  the theorem statements, independent of the model's helpers.  `*Proofs.v` hold lemmas.  `Props*.v`
  hold the property theorems, closed by `exact`, each followed by `Print Assumptions` and by
  `Example`s showing a concrete case that meets its hypotheses.
* **Refuted properties.** A property that the code does not have stays in `properties.jsonl` in its
  full form.  `..._refuted` theorems prove its negation for the modelled code (with the witness);
  `..._partial` theorems prove the part that holds.  Its manifest status is `partial`.

## 2. Trusted base

1. **Coq 8.16.1's kernel** (`coqc`; no kernel check is switched off, and no plugin is used besides those the
   standard library loads).
2. **Axioms.**  No axiom, parameter, section-less variable, functor or module type is declared in
   /verif.  `Print Assumptions` lists, over all theorems, only these standard-library axioms:
   * `ClassicalDedekindReals.sig_forall_dec` (the construction of R),
   * `ClassicalDedekindReals.sig_not_dec` (the construction of R),
   * `FunctionalExtensionality.functional_extensionality_dep`,
   * `Classical_Prop.classic`.
   Coquelicot (complex numbers, derivatives, Riemann integrals) is used as a library of definitions
   and lemmas; it declares no axioms of its own that our theorems use.  The table in section 6 gives
   the list per theorem.
3. **The reading of /repo.** The model was written by hand from the Python source: that each
   definition says what the cited lines do is trusted.
4. **Contracts of Python, numpy, scipy, openPMD** as written in the comments of `PyBase`, `NumPy`,
   `NpFFT`, `NpMath`, and at the head of each model file (FFT sign and normalisation, `linspace`,
   `unwrap`, `interp`, `RegularGridInterpolator`, `gradient`, `roll`, slices and negative indices,
   `round`, `int`, `allclose`, broadcasting).
5. **c, epsilon_0, e, m_e** are opaque positive reals (`PyBase`): no theorem depends on their value.

## 3. What is modelled

| /repo file (lasy/) | model file | covered |
|---|---|---|
| utils/grid.py | GridModel, GridHeap | everything |
| laser.py | LaserModel, LaserOps, AnalysisModel (show), OpenPMDModel (write_to_file) | everything except progress bars/printing and matplotlib drawing |
| optical_elements/*.py | OpticsModel | the four elements' amplitude_multiplier |
| utils/laser_utils.py | EnergyModel, AnalysisModel, SpectrumModel, FullFieldModel, ZModel, UnwrapModel | everything (scikit-image n-D unwrapping is an oracle, UnwrapModel); export_to_z and import_from_z over an axiprop oracle with contracts (ZSpec) |
| utils/openpmd_output.py, utils/openpmd_input.py, profiles/from_openpmd_profile.py | OpenPMDModel, OpenPMDProfileModel | mesh contents and metadata written, file names, reordering on input, FromOpenPMDProfile (all paths); openpmd_api calls are an oracle, the plane extracted by openpmd_viewer is modelled by its documented meaning |
| profiles/from_insight_file.py | InsightModel | everything; the HDF5 datasets are arguments |
| profiles/profile.py, combined_profile.py, gaussian_profile.py | ProfileModel, AnalyticModel | everything |
| profiles/longitudinal/*.py, profiles/transverse/*.py | AnalyticModel, DataModel | everything (the Bessel function is an oracle) |
| profiles/from_array_profile.py | FromArrayModel | everything |
| utils/exp_data_utils.py | DataModel | everything |
| utils/zernike.py | ZernikeModel | everything |
| utils/phase_retrieval.py | GSModel | everything except printing (`debug`) |
| profiles/speckle_profile.py | SpeckleModel | everything; random draws are arguments |
| utils/mode_decomposition.py | ModesModel | everything |
| utils/grid.py:46-53, laser.py:343-358 in binary64 | FloatModel | time axis only |
| utils/laser_utils.py:11-111, 613-637 with rounding | FloatNormModel | energy, normalize_energy, normalize_peak_field_amplitude |

Not modelled: `setup.py`, docs, examples, tests; the numerical content of axiprop, scipy and openPMD; floating-point error outside FloatModel and FloatNormModel;
performance; concurrency (the library has none).

## 4. Plan per property

| id | model | proof |
|----|-------|-------|
| C01 | Grid as state machine `step : grid -> op -> grid * out` | refinement to a one-field spec, induction over op list |
| C02 | heap model: array cells, grid holds addresses, caller may write any address it holds | separation invariant, induction over interleavings, refinement to by-value semantics |
| C03 | same model, error results | case analysis |
| C04 | DFT over C defined by sums | geometric-sum orthogonality |
| C05 | same model with set_is_envelope | refuted by witness; proved for histories in which the flag is not cleared while both caches are filled |
| C06 | Grid constructor with Python indexing/`linspace` | arithmetic |
| C07, C08 | Laser.__init__ both branches | DFT orthogonality / aliasing bound |
| C09-C13 | laser_utils energy and normalization functions | finite-sum algebra, Parseval over theta; C11 refuted (scalar passed as field: AssertionError) |
| C14 | get_grid_cell_volume | telescoping |
| C15-C18 | apply_optics and the four elements | pointwise algebra, Parseval, trigonometry |
| C19-C25 | propagate as a state machine over an abstract solver | invariant + induction over histories; refutations by witness |
| C26 | write_to_file with an abstract file store | induction over histories, injectivity of decimal file names |
| C27-C29 | openPMD writer/reader array conversions | index algebra, trigonometry |
| C30-C32 | get_full_field, show | finite sums; refutations by witness |
| C33-C37, C56 | get_spectrum, get_duration, get_frequency, vector potential, field_to_envelope, create_grid | Parseval, unwrap lemma, algebra; refutations; frame lemmas for C56 |
| C38-C41 | Profile base/sum/scale as syntax trees with evaluate | structural induction |
| C42-C44 | analytic profiles | real/complex analysis identities |
| C45, C57 | heap of transverse profile objects with offsets | induction over histories; refuted for composites |
| C46-C48 | FromArray / FromData profiles with models of np.interp, RegularGridInterpolator, np.unwrap | interpolation-at-node and unwrap mod 2 pi lemmas |
| C49 | image moments | finite-sum algebra |
| C50, C51, C61 | zernike | integer arithmetic, binomial identities; orthonormality by Riemann integrals and the Jacobi-type moment argument |
| C52, C53, C62 | Gerchberg-Saxton loop over abstract solver and a heap of lasers | induction on fuel; monotone mismatch by projection inequality; refutations |
| C54, C63-C68 | speckle pattern, SSD parameters, random time series | finite-sum algebra, triangle inequality, Parseval, shift theorem; refutations |
| C55, C69 | hermite_gauss_decomposition | arithmetic, symmetry of the sampled axis; refuted for offsets |
| C58 | the analytic modes as functions of z_foc | Coquelicot derivatives, paraxial wave equation; refuted for LG with m > 0 |
| C59, C60 | LongitudinalProfileFromData, spectral | order reversal, DFT synthesis; C60 refuted |
| C70-C72 | get_spectrum with every method, `range` and real fields (SpectrumModel) | DFT algebra, interpolation lemmas; raw spectrum convention refuted |
| C73 | get_full_field with `Nt` (FullFieldModel) | interpolation at nodes, frame |
| C74 | FromInsightFile | index and phase algebra |
| C75 | FromOpenPMDProfile, envelopes and real fields, both geometries | composition with C28/C46; refutations |
| C76 | super-Gaussian and jinc shapes | monotonicity, Taylor bounds |
| C77 | Hermite-Gauss modes in any plane | Gaussian integral, Hermite recurrences, improper Riemann integrals |
| C78 | export_to_z / import_from_z over an axiprop oracle (ZModel) | DFT inversion, plane-wave contract; instance without diffraction |
| C79, C80 | Laguerre-Gauss modes, polar integrals (PolarSpec) | Gaussian moments by an explicit primitive, finite differences; power refuted for m <> 0 |
| C81 | apply_optics, PolynomialSpectralPhase | circular shift of the DFT; beat note of two lines |
| C82 | ParabolicMirror on Gaussian, Hermite-Gauss, Laguerre-Gauss modes (ABCDSpec) | complex beam parameter algebra; laser level through C15 |
| C83 | rays of ParabolicMirror, Axicon, Axiparabola (RaySpec) | derivatives of the phase; two documented claims refuted with the exact error |
| C84 | several Laser and Grid objects, references to grids and time-axis arrays (WorldModel) | invariant: distinct lasers use distinct grids and arrays; frame and simulation by induction on the program; aliasing counterexamples |
| C85 | scipy.signal.hilbert (HilbertModel), field_to_envelope | weights of opposite frequencies add up to 2; linearity and pure tones; carrier refuted through C37 |
| C86 | compute_laser_energy, Laser.__init__ against integrals (ConvergeSpec, Coquelicot RInt) | Riemann sums of Lipschitz functions, iterated; exact angular integral of trigonometric polynomials; continuity of sqrt(E/e) |
| C87 | phase_unwrap_nd: get_frequency, field_to_envelope and FromOpenPMDProfile with scikit-image's unwrapping as an arbitrary function or missing (UnwrapModel) | read-only/failure frames, bounds, exactness for linear phases and the real-part identity proved for every unwrapping (UnwrapProofs) |
| C88 | laser_init + get_duration on sampled profiles (exact reals); the continuous duration in DurConvSpec.v | Riemann sums of phi(t)|E|^2 for polynomials phi of degree 2, linearity of the iterated integrals, continuity of the standard deviation in the moments; Gaussian moments by antiderivatives and the Gaussian integral |
| C89 | laser_init + gaussian_profile with an energy request | C86_xyt_field/C86_rt_field plus the limit of the truncated Gaussian integrals |
| C90 | laser_init + get_spectrum(method='sum') on sampled profiles; the continuous spectrum in SpecConvSpec.v | Riemann sums of the Fourier integrals with a modulus uniform in the band, continuity of products and of the energy factor; the Gaussian transform by its differential equation |
| C91 | propagate (plain and resampling), solver as an oracle with an exactness contract; the wave equation, plane and Bessel waves in WaveSpec.v | spectral lines of the DFT in time, exactness of the solver per frequency, phase bookkeeping of the frame shift; completeness of the plane waves by 3-D DFT inversion; termwise second derivatives and the power-series proof of the Bessel equation |
| C92 | SpeckleProfile.__init__ with its assertions in order | case analysis over the types and optional parameters |
| C93 | laser_init and all Laser calls but normalize, solver an oracle that is linear per frequency; kernels, later windows and outcomes in LtiSpec.v | each call has a transfer kernel shared by all parallel lasers (same carrier, same grid up to a time shift); composition of kernels by induction over the history; DFT linearity back to the temporal field |
| C94 | same histories; elements whose multiplier ignores the transverse position (LtiSpec.v) | transfer kernels act frequency by frequency, so a factor per frequency commutes with them |
| C95 | same histories with normalize calls; the history without them is a filter | simulation: proportional parallel lasers stay proportional under each kernel and under each normalization; equality after a last normalization from the scaling laws of energy and peak; duration, frequency and vector potential of proportional fields in NormFreq.v, PropsNormFreq.v |
| C96 | combined_profile, laser_init, apply_optics, normalize, write_to_file, get_duration; filter and traces in SepSpec.v | induction over the history: every pixel's spectrum is multiplied by the same response and one positive factor; sampling of a product; scale invariance of the weighted standard deviation |
| C97 | combined_profile, laser_init with a requested energy, hg/lg/gaussian_transverse, gaussian_long, cosine_long | Riemann-sum convergence (C86) of the discrete energy to the integral, which factors; Hermite and Laguerre norms (C77, C80), Gaussian integral; algebra of locally Lipschitz functions |
| C98 | constructor, normalize, apply_optics, propagate, histories (LaserModel, EnergyModel) | unit factors per first index commute with the per-mode kernels of C93 and leave energies and maxima unchanged; induction over the history; rotation = factor exp(-i m alpha) on mode m; the reads of two pulses that differ by a phase in PhaseReads.v, PropsPhase.v |
| C99 | propagate (with layer), apply_optics, write_to_file, compute_laser_energy; per-frequency energy in LedgerSpec.v | per call: solver step keeps, layer and element multiply by factors at most one; induction over the history; Parseval for the total |
| C100 | np.linspace and the three in-place shifts of propagate, in binary64 (Flocq): `FloatModel.v` | monotonicity and relative error of rounding, induction on the history; a concrete merge for the converse |
| C101 | the energy, its normalization and the peak normalization with a relative error on every operation and any summation tree: `FloatNormModel.v` | interval bounds carried through the operations, induction on the summation tree |
| C102 | hermite_gauss_decomposition and estimate_best_HG_waist (ModesModel.v); vocabulary in HGConvSpec.v | the grid sum is a double Riemann sum over a window within r/2 of 5 w0; products of Lipschitz families uniform in the waist (Hermite recursion, Gaussian); the second moment of the intensity is bounded below uniformly in its centre, so the estimated waist stays in a compact range (HGConv.v, HGConv2.v) |
| C103 | laser_init, propagate, apply_optics, normalize on Xyt (LaserModel.v, LaserOps.v); get_duration, get_spectrum; vocabulary in MirrorSpec.v | a relation between the two runs (same metadata, mirrored arrays) preserved by every call (MirrorProofs.v); the angular-spectrum solver meets the hypothesis: a reversed array has the negated frequencies times a twiddle (MirrorWave.v); sums over the transverse plane reversed (MirrorReads.v, PropsMirrorReads.v) |
| C104 | the whole Laser state machine (LaserModel.v, LaserOps.v), AnalysisModel.v, AnalyticModel.v, OpticsModel.v; vocabulary in ScaleSpec.v | an exact simulation: scaling the state commutes with every call (ScaleProofs.v); a scale-free solver and the library's profiles and elements in ScaleWave.v; local frequency and vector potential in ScaleFreq.v, PropsScaleFreq.v |
| C105 | laser_init, propagate, apply_optics, normalize on Rt (LaserModel.v, LaserOps.v); vocabulary in MirrorRtSpec.v | the relation of C103 with the mode axis reversed (slot i against slot n-i) preserved by every call; the construction by reversing the discrete transform over angles (MirrorRtProofs.v); duration and spectrum in MirrorRtReads.v, PropsMirrorRtReads.v |
| C106 | the whole Laser state machine on Xyt (LaserModel.v, LaserOps.v), get_duration, get_spectrum (sum), get_full_field (AnalysisModel.v); vocabulary in TransSpec.v | an exact simulation: transposing the state commutes with every call on well-formed grids (TransProofs.v); two-dimensional transforms and their order (TransWave.v); get_spectrum with all options (PropsTransSpectrum.v) |
| C107 | the whole Laser state machine on Xyt plus get_duration, get_spectrum, show, get_full_field (LaserModel.v, LaserOps.v, AnalysisModel.v, SpectrumModel.v); vocabulary MoveSpec.v | functional simulation (MoveProofs.v: every call but apply_optics commutes exactly with displacing the grid), in-range simulation for optics reusing C103 with no reflection, construction, then the reads (MoveMain.v; local frequency and vector potential in MoveFreq.v, PropsMoveFreq.v) |

## 5. Properties the code does not have

These are stated in full in `properties.jsonl`, refuted by a theorem `..._refuted` about the model, and
proved in part.

* **C05** (`C05_toggle_refuted`): REFUTED by the code as stated: set_is_envelope(False) drops the imaginary part but leaves the cached spectrum valid; holds when set_is_envelope(False) is not called with both representations cached
* **C11** (`C11_intensity_refuted`): REFUTED: normalize(I,'intensity') raises AssertionError for every non-zero field (laser_utils.py passes a scalar to set_temporal_field); the partial theorem shows the failing call is harmless
* **C23** (`C23_failed_resampling_loses_pulse_refuted`): REFUTED: a resampling propagate that raises has already replaced self.grid (laser.py:252-257), the pulse is lost; proved for all failures without resampling and for nr_boundary failures
* **C24** (`C24_stale_time_step_refuted`, `C24_mode_labels_refuted`): REFUTED: dx of the time axis stays that of the new grid, and components are matched by position so fewer modes means wrong labels; everything else proved
* **C29** (`C29_rt_odd_refuted`, `C29_rt_three_refuted`): REFUTED for odd numbers of radial samples (>=5 raises ValueError, 3 silently mixed). Proved in full for Cartesian data and for even radial sizes.
* **C30** (`C30_refuted`): REFUTED: rows below the axis show angle -theta, not theta+pi. Proved: upper half exact for every theta and mode content; lower half right iff stated cases (cos theta = 0 or one mode); counterexample with a vortex.
* **C32** (`C32_edges_refuted`, `C32_extent_refuted`): REFUTED: slice=+-0.5 are not the edge slices and the extent for slice_axis='x' is that of the x axis. Proved: which slice is returned for every s, centre for s=0, SliceY extent right, data exact.
* **C33** (`C33_rt_refuted`): Complete for xyt (any history). REFUTED for rt with several modes: only mode 0 is summed (vortex: zero spectrum, positive energy); proved equal to the mode-0 energy, hence to the energy for one mode.
* **C37** (`C37_create_rt_refuted`, `C37_time_axis_refuted`, `C37_frequency_refuted`): REFUTED: create_grid rejects every 2-D cylindrical array; its check of the time axis (np.allclose with the default atol = 1e-8 s) lets every time axis of a laser pulse through, however non-uniform, and replaces it by a uniform one; field_to_envelope takes the phase of the real field instead of its Hilbert transform and reports frequency 0 for any centred cosine.
* **C40** (`C40_refuted`): REFUTED: np.allclose's absolute tolerance 1e-8 is metres here, so 800 nm + 805 nm is accepted. Proved: the exact acceptance condition.
* **C43** (`C43_fwhm_super_gaussian_refuted`): REFUTED: with the documented tau of the super-Gaussian (tau = F/(sqrt(2) ln(2)^(1/n))) the intensity at F/2 from the peak is half the peak only for n = 2. Everything else in the statement is proved.
* **C44** (`C44_mirror_refuted`): REFUTED: out of focus the mode -m is the mirror image of the mode m only up to a phase (the Gouy phase uses m instead of abs(m)); the azimuthal dependence, the single-mode grid content and the in-focus mirror symmetry are proved.
* **C45** (`C45_refuted`): REFUTED: set_offset on a sum or a scaled profile has no effect. Proved for elementary profiles over every history.
* **C46** (`C46_time_first_refuted`, `C46_time_first_raises_refuted`, `C46_rt_time_first_raises_refuted`, `C46_refuted`): REFUTED for time-first axes_order: the interpolator is built from the unswapped array (wrong values, or ValueError), and ['t','r'] always raises. Everything else is proved for the default axes order.
* **C47** (`C47_outside_refuted`, `C47_decreasing_refuted`, `C47_refuted`): REFUTED: np.interp continues the edge values outside the window instead of zero, and decreasing times always raise ValueError at evaluation. The rest is proved.
* **C48** (`C48_refuted`): REFUTED only for the last clause: the shift is rounded towards zero from n/2, so the pixel nearest the centre of mass may end up next to the central pixel. The rest is proved.
* **C53** (`C53_refuted_residual`, `C53_refuted_limit`): REFUTED: the stopping rule tests the SIGNED sum, so it can stop with an arbitrarily large absolute deviation, and it ignores max_iterations (can loop forever). Proved: the signed sum is within tolerance on return.
* **C55** (`C55_refuted_x`, `C55_refuted_y`, `C55_refuted_data`, `C55_refuted_transposed`): REFUTED: the window is displaced by +x_offset while the beam is at -x_offset, y_offset is ignored (analytic) or mixed with x_offset (data), and x and y extents of data are swapped. Proved: window, linearity and waist selection without offsets
* **C57** (`C57_refuted`): REFUTED: composite profiles share their parts and set_offset mutates and returns the object, so a later set_offset on a part changes the composite. Proved: nothing else does.
* **C58** (`C58_refuted`): REFUTED for Laguerre-Gauss with m > 0 (the amplitude misses the factor (w0/w)^abs(m), and the Gouy phase uses m); proved for Gaussian, Hermite-Gauss, Laguerre-Gauss with m = 0, and for every m up to a factor depending on z only.
* **C60** (`C60_refuted`): REFUTED: the ifft synthesises with exp(+i(w-w0)t), so that the spectrum is mirrored about the central frequency (and the frequency step 1/(dt(N-1)) differs from that of the transform). C60_synthesis_partial is the exact formula that holds, in general.
* **C64** (`C64_refuted`): REFUTED: amplitudes (delta,0) pass the constructor's checks but give a 0/0 or x/0 modulation frequency and a field made of nan only; proved when both amplitudes are positive
* **C65** (`C65_refuted`): REFUTED: only x[:,0,0] and y[0,:,0] are used, so on a cylindrical grid the field does not depend on the radius; proved on Cartesian grids
* **C67** (`C67_refuted`): REFUTED: negative times index the ISI series from its end or raise IndexError, and freeze the RPM phases; proved for non-negative times
* **C68** (`C68_refuted_odd`): REFUTED: fftshift is applied where ifftshift is needed, so odd lengths are displaced by one bin; and the full width is fwhm/pi (in frequency). Proved: Gaussian centred on 0 for even lengths
* **C70** (`C70_raw_refuted`): REFUTED only for the phase of the raw spectrum of an envelope: it is the complex conjugate of the documented transform (C70_convention_partial), unlike that of a real field. Frequencies, amplitudes of every method, densities and read-only are proved in full. Remark: the docstring's density prefactor eps0 c/(2 pi) differs from the code's eps0 c/pi; the code's is the energy-consistent one (C33, C90).
* **C71** (`C71_refuted`): REFUTED: the zero frequency is counted twice and the highest frequency is dropped (a constant field gives twice its energy). Proved: the exact balance, hence equality when these two components vanish.
* **C75** (`C75_real_refuted`): REFUTED: electric fields (is_envelope False or real data) are never accepted: in xyt only the first x slice of the envelope is kept (get_temporal_field()[0]) so FromArrayProfile raises, in rt create_grid raises. Proved for envelopes: values at all stored points for every axis order, in z or t; mean of both sides for a plane; default of is_envelope; round trip of write_to_file for cylindrical lasers (exact for one mode) and reduction to C28 for Cartesian ones. The viewer is modelled by its documented meaning.
* **C80** (`C80_refuted`): REFUTED: a Laguerre-Gauss mode with m different from 0 has a power proportional to (1 + (z_foc/zR)^2)^m in absolute value of m, since r^m is not scaled by the waist w(z); exact formula proved for every p and m. It is constant for Gaussian profiles, for Laguerre-Gauss with m = 0 and for Hermite-Gauss (C77).
* **C83** (`C83_axicon_refuted`, `C83_refuted`): REFUTED: the parabolic mirror claim holds exactly. Axicon: the inclination of the rays is 2 tan(gamma/2), strictly between sin gamma and tan gamma for 0 < gamma < pi/2, so never exactly the angle gamma. Axiparabola: the focal distance starts at f0 and grows with r, but at r = R it is (f0+delta)/(1+(delta/f0)^3+(1+delta/f0) delta R^2/(8 f0^3)), always less than f0+delta.
* **C84** (`C84_shared_refuted`, `C84_refuted`, `C84_released_refuted`): REFUTED: propagate(grid=g) stores the Grid object itself and shares the time-axis array of the old grid: two lasers propagated onto the same Grid object end with the same field (C84_shared_refuted, C84_refuted), and the Grid a laser leaves gets a time axis moved by d/c while its lo, hi stay (C84_released_refuted). Proved: independence of every laser, for all programs and interleavings, as long as no laser is resampled onto a Grid object that a laser is using.
* **C85** (`C85_carrier_refuted`): REFUTED: the returned frequency is 0 for a centred cosine, so the carrier is not removed (C85_carrier_refuted). Proved for every real field and size: the envelope reproduces the field and has the right modulus.
* **C87** (`C87_profile_refuted`): REFUTED only for FromOpenPMDProfile, which raises for every electric field with this option as without it (C75); everything about get_frequency and field_to_envelope is proved for every unwrapping function C87_profile_refuted records that FromOpenPMDProfile cannot use the option (see C75).

## 6. Print Assumptions per theorem

D = `sig_forall_dec`, N = `sig_not_dec`, F = `functional_extensionality_dep`, K = `Classical_Prop.classic`.

* **D** (4): `C45_composite_noop_partial`, `C45_leaf_partial`, `C45_scale_partial`, `C57_frame_partial`
* **DF** (29): `C06_axes`, `C06_construction_iff`, `C06_mode_layout`, `C13_definite_xyt`, `C29_rt_even_partial`, `C29_rt_odd_refuted`, `C29_rt_reject`, `C29_rt_three_refuted`, `C29_xyt`, `C29_xyt_reject`, `C32_edges_refuted`, `C37_axes_partial`, `C37_create_rt_refuted`, `C37_time_axis_refuted`, `C45_composite_partial`, `C45_refuted`, `C45_set_offset_partial`, `C45_sum_partial`, `C47_window_partial`, `C48_bijection_partial`, `C48_shift_partial`, `C49_range`, `C51_edge`, `C51_odd`, `C51_parity`, `C51_radial`, `C51_rank`, `C57_refuted`, `C72_points`
* **DFN** (214): `C01_cache_coherent`, `C02_caller_writes_invisible`, `C02_calls_preserve_caller_arrays`, `C02_isolation`, `C03_read_before_write`, `C03_set_rejections`, `C04_api_roundtrip`, `C04_parseval`, `C04_roundtrip_spectral`, `C04_roundtrip_temporal`, `C05_toggle_partial`, `C05_toggle_refuted`, `C07_real_rejected`, `C07_whenever_constructed`, `C07_xyt_samples`, `C08_aliasing`, `C08_any_profile`, `C08_interpolates`, `C08_rt_modes`, `C08_too_few_angles`, `C09_construction_energy`, `C09_normalize_energy`, `C101_accuracy`, `C101_energy`, `C101_energy_error`, `C101_exact`, `C101_field`, `C103_analysis`, `C103_mirror`, `C103_solver`, `C103_symmetric`, `C104_analysis`, `C104_elements`, `C104_gaussian`, `C104_rejects`, `C104_scale`, `C104_solver`, `C105_analysis`, `C105_mirror`, `C105_solver`, `C105_symmetric`, `C106_solver`, `C106_spectrum`, `C106_symmetric`, `C106_transpose`, `C107_full_field`, `C107_moved`, `C107_solver`, `C10_normalize_field`, `C11_failure_harmless_partial`, `C11_intensity_refuted`, `C12_none_noop`, `C12_unknown_kind`, `C12_zero_noop`, `C13_angular_average`, `C13_energy_formula_rt`, `C13_energy_formula_xyt`, `C13_nonneg`, `C13_quadratic`, `C14_cell_volumes`, `C15_order_irrelevant`, `C15_pointwise_rt`, `C15_pointwise_xyt`, `C15_unit_element`, `C16_aperture_never_increases`, `C16_phase_only_conserves`, `C16_shipped_elements`, `C16_volumes_nonneg`, `C17_elements_symmetric`, `C17_modewise_is_3d`, `C18_axicon`, `C18_axiparabola`, `C18_mirrors`, `C18_phases`, `C18_spectral_phases`, `C19_time_window_all_histories`, `C19_window`, `C20_compose`, `C20_reverse`, `C21_any_backends`, `C21_cache_fresh`, `C21_cache_never_stale`, `C22_energy_conserved`, `C23_boundary_failure_harmless_partial`, `C23_failed_resampling_loses_pulse_refuted`, `C23_plain_failure_harmless_partial`, `C24_mode_labels_refuted`, `C24_resample_partial`, `C24_same_dt_consistent_partial`, `C24_stale_time_step_refuted`, `C25_absorbing_layer`, `C25_rejected`, `C30_below_partial`, `C30_planes_partial`, `C30_refuted`, `C31_show`, `C31_show_centre`, `C31_show_xyt`, `C32_extent_refuted`, `C32_slices_partial`, `C33_omega0_required`, `C33_rt_partial`, `C33_rt_refuted`, `C33_xyt`, `C34_affine`, `C34_scale`, `C37_create_xyt_partial`, `C38_expressions`, `C38_init`, `C38_length`, `C39_dtype`, `C39_laws`, `C39_pointwise`, `C39_rejections`, `C39_zero`, `C40_iff_partial`, `C40_refuted`, `C40_reject_partial`, `C41_no_energy`, `C41_rt`, `C41_xyt`, `C42_argument_order`, `C42_constructs`, `C42_in_focus`, `C42_modulus`, `C43_cosine_partial`, `C43_fwhm_cosine_partial`, `C47_between_partial`, `C47_decreasing_refuted`, `C47_linear_partial`, `C47_nodes_partial`, `C47_outside_refuted`, `C47_refuted`, `C48_constructs_partial`, `C48_mean_partial`, `C48_nodes_partial`, `C48_norm_partial`, `C48_outside_partial`, `C48_refuted`, `C49_d4_zero`, `C49_scale`, `C49_translate`, `C49_transpose`, `C50_injective`, `C50_onto`, `C50_pair`, `C50_result`, `C56_laser`, `C70_convention_partial`, `C70_default`, `C70_envelope_partial`, `C70_grids`, `C70_lasers`, `C70_omega0_required`, `C70_raw_refuted`, `C70_read_only`, `C70_real`, `C71_energy_partial`, `C71_refuted`, `C72_empty`, `C72_range`, `C72_raw`, `C74_real`, `C78_default_axis`, `C78_delay`, `C78_delay_shifted`, `C78_export_linear`, `C78_export_read_only`, `C78_import_checks`, `C78_import_failure`, `C78_import_linear`, `C78_modes`, `C78_roundtrip`, `C78_roundtrip_shifted`, `C81_delay`, `C82_collimated`, `C82_gaussian`, `C82_image`, `C82_laser`, `C83_unique`, `C84_isolated_partial`, `C84_new`, `C84_programs_partial`, `C84_refuted`, `C84_released_refuted`, `C84_shared_refuted`, `C86_xyt_energy`, `C86_xyt_field`, `C91_rt`, `C91_rt_resample`, `C91_xyt_waves`, `C92_accepts_iff`, `C92_stores`, `C93_selection`, `C93_sum_of_profiles`, `C93_superposition`, `C93_time_origin`, `C93_transfer`, `C94_commute`, `C95_cells`, `C95_last`, `C95_normalize`, `C96_amplitude`, `C96_duration`, `C96_product_rt`, `C96_product_xyt`, `C96_unshaped`, `C97_xyt`, `C98_analysis`, `C98_phase`, `C98_rotation`, `C99_elements`, `C99_ledger`, `C99_passive`
* **DFKN** (179): `C100_ends`, `C100_error`, `C100_merge`, `C100_order`, `C100_resolved`, `C101_weights`, `C102_range`, `C102_weights`, `C104_combined`, `C104_frequency`, `C107_frequency`, `C26_failure`, `C26_numbering`, `C26_other_files`, `C27_any_grid`, `C27_real_grid_refuted`, `C27_same_field`, `C28_roundtrip`, `C34_values`, `C35_bounds`, `C35_chirp`, `C35_mean`, `C35_monochromatic`, `C36_direct`, `C36_roundtrip`, `C37_frequency_refuted`, `C43_fwhm_gaussian_partial`, `C43_fwhm_super_gaussian_refuted`, `C43_gaussian_partial`, `C43_order2_partial`, `C43_super_gaussian_partial`, `C44_azimuthal_partial`, `C44_in_focus_partial`, `C44_mirror_partial`, `C44_mirror_refuted`, `C44_single_mode_partial`, `C46_accepts_partial`, `C46_between_partial`, `C46_nodes_partial`, `C46_outside_partial`, `C46_refuted`, `C46_rt_axis_partial`, `C46_rt_between_partial`, `C46_rt_nodes_partial`, `C46_rt_outside_partial`, `C46_rt_time_first_raises_refuted`, `C46_rt_time_partial`, `C46_time_first_raises_refuted`, `C46_time_first_refuted`, `C46_time_partial`, `C51_mode`, `C51_scaling`, `C52_consistent`, `C52_iterations`, `C52_no_pass`, `C52_unknown`, `C52_untouched`, `C53_early`, `C53_never`, `C53_refuted_limit`, `C53_refuted_residual`, `C53_signed_partial`, `C54_bound`, `C54_fm_ssd`, `C54_gp_isi`, `C54_gp_rpm_ssd`, `C54_plates`, `C55_composite`, `C55_linear`, `C55_refuted_data`, `C55_refuted_transposed`, `C55_refuted_x`, `C55_refuted_y`, `C55_region`, `C55_waist`, `C55_window_partial`, `C56_grid`, `C58_gaussian_partial`, `C58_hermite_partial`, `C58_laguerre_partial`, `C58_laguerre_upto_partial`, `C58_refuted`, `C59_bound`, `C59_central`, `C59_centre`, `C59_constructs`, `C59_order`, `C59_times`, `C60_refuted`, `C60_synthesis_partial`, `C61_orthonormal`, `C62_monotone`, `C63_mean_intensity`, `C63_period`, `C64_partial`, `C64_refuted`, `C65_no_radius`, `C65_partial`, `C65_refuted`, `C66_edges`, `C66_rms`, `C67_frozen`, `C67_isi_partial`, `C67_refuted`, `C67_rpm_partial`, `C67_wrap`, `C68_even_partial`, `C68_odd`, `C68_refuted_odd`, `C68_width`, `C69_parity`, `C73_default`, `C73_readonly`, `C73_rt`, `C73_same`, `C73_xyt`, `C74_constructs`, `C74_given`, `C74_outside`, `C74_peak`, `C74_range`, `C75_default`, `C75_real_refuted`, `C75_roundtrip_axisymmetric`, `C75_roundtrip_rt`, `C75_rt_partial`, `C75_written_xyt`, `C75_xyt_partial`, `C76_jinc`, `C76_orders`, `C76_super_gaussian`, `C76_top_hat`, `C77_coefficients`, `C77_energy`, `C77_orthonormal`, `C79_orthogonal`, `C80_gaussian_partial`, `C80_laguerre_partial`, `C80_refuted`, `C81_group_delay`, `C82_hermite`, `C82_laguerre`, `C83_axicon_partial`, `C83_axicon_refuted`, `C83_axiparabola_partial`, `C83_focal_range_partial`, `C83_mirror_partial`, `C83_refuted`, `C85_amplitude`, `C85_carrier_refuted`, `C85_recover`, `C86_rt_energy`, `C86_rt_field`, `C87_amplitude`, `C87_bounds`, `C87_linear`, `C87_missing`, `C87_not_needed`, `C87_profile_refuted`, `C87_read_only`, `C87_recover`, `C88_gaussian_rt`, `C88_gaussian_xyt`, `C88_rt`, `C88_xyt`, `C89_rt`, `C89_xyt`, `C90_gaussian_rt`, `C90_gaussian_xyt`, `C90_rt`, `C90_xyt`, `C91_bessel_waves_solve`, `C91_plane_waves_solve`, `C91_xyt`, `C95_analysis`, `C97_gaussian`, `C97_hermite`, `C97_laguerre`, `C97_rt`
* **closed under the global context** (2): `C26_location`, `C26_same_arguments`
