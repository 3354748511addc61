{"id": "C01", "title": "Grid field cache is coherent over every call history", "statement": "After any sequence of Grid calls set_temporal_field, set_spectral_field, get_temporal_field, get_spectral_field (successful or failing) on an envelope grid, get_temporal_field returns the field determined by the most recent successful set: the array passed to set_temporal_field, or the forward DFT along time of the array passed to set_spectral_field; get_spectral_field returns the inverse DFT along time of that same field (or the array that was set). Reading never changes what any later read returns, and a rejected set has no effect.", "quantifier": "all grids, all finite call sequences, all array contents, every index", "why_tests_cant": "the validity flags make the result depend on the whole history; tests try two or three call orders", "anchors": ["lasy/utils/grid.py:Grid.set_temporal_field", "lasy/utils/grid.py:Grid.set_spectral_field", "lasy/utils/grid.py:Grid.get_temporal_field", "lasy/utils/grid.py:Grid.get_spectral_field"]}
{"id": "C02", "title": "Grid arrays are isolated from caller arrays", "statement": "Arrays returned by get_temporal_field/get_spectral_field and arrays passed to set_temporal_field/set_spectral_field are never aliased with the grid's own storage: whatever in-place writes the caller performs on any array it holds, at any point between grid calls, every later get returns the same values as if those writes had not happened; and no grid call modifies an array the caller holds.", "quantifier": "all interleavings of grid calls with arbitrary caller in-place writes on any array obtained or supplied", "why_tests_cant": "aliasing bugs only show for particular interleavings of mutation and API calls", "anchors": ["lasy/utils/grid.py:Grid.get_temporal_field", "lasy/utils/grid.py:Grid.get_spectral_field", "lasy/utils/grid.py:Grid.set_temporal_field"]}
{"id": "C03", "title": "Reading before writing and ill-shaped writes are rejected without side effects", "statement": "On a freshly constructed Grid, get_temporal_field and get_spectral_field raise ValueError until a set succeeds; set_temporal_field/set_spectral_field raise AssertionError exactly when shape or dtype differ from the grid's, and then leave the grid unchanged; get_spectral_field on a non-envelope grid raises AssertionError and changes nothing.", "quantifier": "all grids, all arrays (any rank, shape, dtype), all histories", "why_tests_cant": "needs every bad shape/dtype in every state", "anchors": ["lasy/utils/grid.py:Grid.set_temporal_field", "lasy/utils/grid.py:Grid.get_spectral_field"]}
{"id": "C04", "title": "Temporal and spectral representations are exact inverses with Parseval energy", "statement": "Converting a field to the spectral representation and back (either direction) returns the same array at every index, for every number of time samples Nt >= 1, and sum_t |E(t)|^2 = Nt * sum_w |S(w)|^2 on every transverse point.", "quantifier": "all array sizes and contents", "why_tests_cant": "tests use a few sizes and Gaussian data with tolerances", "anchors": ["lasy/utils/grid.py:Grid.temporal2spectral_fft", "lasy/utils/grid.py:Grid.spectral2temporal_fft"]}
{"id": "C05", "title": "Toggling the envelope flag keeps the two representations consistent", "statement": "After any sequence of Grid calls including set_is_envelope, whenever both get_temporal_field and get_spectral_field succeed, they describe the same field (one is the DFT of the other).", "quantifier": "all call histories including set_is_envelope(False)/(True)", "why_tests_cant": "only particular orders of flag toggling and reads expose a stale cache", "anchors": ["lasy/utils/grid.py:Grid.set_is_envelope"]}
{"id": "C06", "title": "Grid construction: domain, spacing and mode layout", "statement": "Grid(dim, lo, hi, npoints, M) succeeds exactly when dim is 'rt' or 'xyt', lo and hi have one entry per direction, every direction has at least 2 points (and M >= 1 for rt); then each axis starts at lo, ends at hi, is uniformly spaced by dx=(hi-lo)/(npoints-1), and for rt the component of azimuthal mode m is stored at Python index m (negative m counted from the end) in an array of 2M-1 components, each mode in (-M, M) exactly once.", "quantifier": "all dims, bounds, point counts and mode counts", "why_tests_cant": "off-by-one errors at boundary sizes and mode counts", "anchors": ["lasy/utils/grid.py:Grid.__init__"]}
{"id": "C07", "title": "Laser in xyt samples the profile on the grid", "statement": "After Laser('xyt', ...) the temporal field at every (i,j,k) equals one common factor times profile.evaluate at (x_i, y_j, t_k); the factor is 1 if the profile declares no laser_energy (or None) or the sampled field has zero energy, and otherwise is sqrt(laser_energy/energy of the samples). A profile whose evaluate returns real (non-complex) values is refused with an AssertionError in xyt.", "quantifier": "all profiles, grids, indices", "why_tests_cant": "axis ordering/transposition mistakes vanish for symmetric test profiles", "anchors": ["lasy/laser.py:Laser.__init__"]}
{"id": "C08", "title": "Laser in rt recovers every resolved azimuthal mode exactly", "statement": "If the profile's angular content is sum_{|m|<=K} a_m(r,t) exp(-i m theta) and n_theta_evals >= K + n_azimuthal_modes (in particular K < n_azimuthal_modes with the default n_theta_evals), Laser('rt', ...) stores a_m(r_j,t_k) (times the common energy factor) as mode m for every |m| < n_azimuthal_modes; n_theta_evals < 2*n_azimuthal_modes-1 is rejected with AssertionError. For any profile, mode m holds the n_theta_evals-point average of profile*exp(i m theta): components m' with m' = m modulo n_theta_evals are folded onto m, and with the default n_theta_evals the stored modes reproduce the profile at the 2*n_azimuthal_modes-1 sampled angles.", "quantifier": "all profiles, all mode counts, all angular contents, all n_theta_evals", "why_tests_cant": "aliasing depends on the relation between three integers; tests use 1-3 modes", "anchors": ["lasy/laser.py:Laser.__init__"]}
{"id": "C09", "title": "Energy normalization hits the requested energy", "statement": "After Laser construction with a profile that declares laser_energy=E>=0, or laser.normalize(E,'energy'), compute_laser_energy returns exactly E whenever the energy before was positive, and the new field is the old one times one non-negative real factor (phase and shape unchanged).", "quantifier": "all fields, grids, both dims, all E>=0", "why_tests_cant": "tests check one Gaussian", "anchors": ["lasy/utils/laser_utils.py:normalize_energy", "lasy/utils/laser_utils.py:compute_laser_energy", "lasy/laser.py:Laser.normalize"]}
{"id": "C10", "title": "Peak-field normalization hits the requested peak", "statement": "After laser.normalize(A,'field') with A>=0 on a field that is not identically zero, max |E| over the grid equals A and the new field is the old one times one non-negative real factor.", "quantifier": "all fields, sizes, A>=0", "why_tests_cant": "maximum may sit anywhere, including array edges", "anchors": ["lasy/utils/laser_utils.py:normalize_peak_field_amplitude"]}
{"id": "C11", "title": "Peak-intensity normalization hits the requested intensity", "statement": "laser.normalize(I,'intensity') on a non-zero field succeeds and rescales the field so that the peak of c*epsilon_0*|E|^2/2 equals I.", "quantifier": "all non-zero fields and I>=0", "why_tests_cant": "not exercised by any test in the repository", "anchors": ["lasy/utils/laser_utils.py:normalize_peak_intensity"]}
{"id": "C12", "title": "Normalization is a no-op on None / zero field and rejects unknown kinds", "statement": "normalize(None, kind) for the three kinds, and normalize(v, kind) on an all-zero field, leave every later read unchanged; an unknown kind raises ValueError and changes nothing.", "quantifier": "all lasers, kinds, values", "why_tests_cant": "needs every state and kind", "anchors": ["lasy/laser.py:Laser.normalize", "lasy/utils/laser_utils.py:normalize_energy"]}
{"id": "C13", "title": "Energy is a positive-definite quadratic functional, and rt energy is the angular average", "statement": "compute_laser_energy is >= 0, scales as |s|^2 when the field is scaled by a complex s, is zero in xyt iff the field vanishes at every grid point, and in rt equals the average over any N >= 2M-1 equally spaced angles of the energy of the reconstructed field sum_m E_m exp(-i m theta).", "quantifier": "all fields, grids, scale factors, N", "why_tests_cant": "identities over all fields", "anchors": ["lasy/utils/laser_utils.py:compute_laser_energy", "lasy/utils/laser_utils.py:get_grid_cell_volume"]}
{"id": "C14", "title": "Radial cell volumes tile the cylinder", "statement": "For rt grids the cell volumes returned by get_grid_cell_volume sum to exactly c*dt*pi*((r_max+dr/2)^2-(r_min-dr/2)^2), each equals 2*pi*r*dr*c*dt, and they are non-negative iff r >= 0.", "quantifier": "all radial grids", "why_tests_cant": "telescoping identity for every size", "anchors": ["lasy/utils/laser_utils.py:get_grid_cell_volume"]}
{"id": "C15", "title": "apply_optics multiplies the spectrum pointwise and nothing else", "statement": "After apply_optics(e) the spectral field at every point equals T(x,y,omega)*old value with omega the laser's angular-frequency axis (omega0 + DFT frequency); window, axes, spacing and output counter are unchanged; two elements applied in either order give the same field; an element with multiplier 1 changes nothing.", "quantifier": "all elements, lasers, both dims, all indices", "why_tests_cant": "order and index mistakes hide for symmetric data", "anchors": ["lasy/laser.py:Laser.apply_optics"]}
{"id": "C16", "title": "Phase-only optics conserve energy; apertures never increase it", "statement": "apply_optics with |T|=1 everywhere leaves compute_laser_energy unchanged; with |T|<=1 it never increases it. All four shipped elements satisfy |T|<=1, and ParabolicMirror, Axicon and PolynomialSpectralPhase satisfy |T|=1.", "quantifier": "all lasers, all parameters of the elements", "why_tests_cant": "energy identity over all fields via Parseval", "anchors": ["lasy/laser.py:Laser.apply_optics", "lasy/optical_elements/parabolic_mirror.py:ParabolicMirror.amplitude_multiplier", "lasy/optical_elements/axiparabola.py:Axiparabola.amplitude_multiplier"]}
{"id": "C17", "title": "Applying optics mode-by-mode equals applying them to the full 3D field", "statement": "For every shipped element the multiplier depends on (x,y) only through x^2+y^2, so in rt the reconstructed spectral field at any angle theta after apply_optics equals T(r cos theta, r sin theta, omega) times the reconstructed spectral field before.", "quantifier": "all shipped elements and parameters, all angles, radii, frequencies, mode counts", "why_tests_cant": "continuum of angles", "anchors": ["lasy/laser.py:Laser.apply_optics"]}
{"id": "C18", "title": "Optical elements compose as documented", "statement": "Two parabolic mirrors f1,f2 act as one with 1/f=1/f1+1/f2 and f,-f cancel; spectral phases add coefficient-wise and T(omega0)=1; axiparabola is exactly zero beyond radius R and, with delta=0, coincides with the parabolic mirror of focal length f0 inside; axicon phases vanish on axis and gamma,-gamma cancel.", "quantifier": "all parameters, positions, frequencies", "why_tests_cant": "identities over continuous parameters", "anchors": ["lasy/optical_elements/parabolic_mirror.py", "lasy/optical_elements/polynomial_spectral_phase.py", "lasy/optical_elements/axiparabola.py", "lasy/optical_elements/axicon.py", "lasy/optical_elements/optical_element.py:OpticalElement"]}
{"id": "C19", "title": "propagate moves the time window by exactly distance/c, over every history", "statement": "After any sequence of successful propagate/apply_optics/normalize/write_to_file calls (without resampling), the time bounds and the time axis equal the initial ones shifted by (sum of distances)/c, the axis stays uniform with the original spacing and consistent with lo/hi, and the transverse axes are unchanged.", "quantifier": "all call histories and distances", "why_tests_cant": "accumulated over arbitrarily many calls", "anchors": ["lasy/laser.py:Laser.propagate"]}
{"id": "C20", "title": "Propagation composes and reverses", "statement": "Whenever the diffraction solver itself satisfies step(d1) then step(d2) = step(d1+d2), propagate(d1); propagate(d2) yields the same field and window as propagate(d1+d2), and propagate(d); propagate(-d) restores the original field and window.", "quantifier": "all lasers, distances, solvers satisfying the semigroup law", "why_tests_cant": "tests compare a few distances with tolerance", "anchors": ["lasy/laser.py:Laser.propagate"]}
{"id": "C21", "title": "The cached propagator is never stale", "statement": "For every history of propagate (with or without resampling), apply_optics, normalize and write_to_file calls in which every call succeeds, the solver used by each propagate is one built for the laser's current transverse grid, azimuthal modes and frequency axis: results equal those obtained by rebuilding the solver at every call.", "quantifier": "all successful call histories, all interleavings of resampling and plain propagation", "why_tests_cant": "stale caches need particular histories", "anchors": ["lasy/laser.py:Laser.propagate"]}
{"id": "C22", "title": "Propagation conserves energy when the solver is unitary", "statement": "If the solver preserves the weighted L2 norm per frequency, propagate without nr_boundary and resampling leaves compute_laser_energy unchanged.", "quantifier": "all lasers, distances, unitary solvers", "why_tests_cant": "identity over all fields", "anchors": ["lasy/laser.py:Laser.propagate"]}
{"id": "C23", "title": "A failed propagate leaves the laser usable and unchanged", "statement": "If propagate raises, the laser's field, window and grid are the same as before the call.", "quantifier": "all failing calls, every raising point", "why_tests_cant": "requires every crash point of the method", "anchors": ["lasy/laser.py:Laser.propagate"]}
{"id": "C24", "title": "Resampling keeps mode labels and time metadata", "statement": "propagate(d, grid=g) in rt replaces the transverse grid by g's, keeps the time window (shifted by d/c), keeps each azimuthal mode's label, and leaves the grid metadata self-consistent (dx equals axis spacing, so later energies are right).", "quantifier": "all target grids accepted by propagate", "why_tests_cant": "depends on target grid's time range and mode count relative to the source", "anchors": ["lasy/laser.py:Laser.propagate"]}
{"id": "C25", "title": "Absorbing boundary only attenuates, and only in the boundary layer", "statement": "propagate(..., nr_boundary=n) first multiplies the field by a factor in [0,1] that is exactly 1 outside the layer of n cells at the outer transverse edges, 0 on the outermost cells; n larger than the transverse size, non-integer or non-positive n is rejected.", "quantifier": "all n, grids, indices", "why_tests_cant": "slicing edge cases (n=1, n=N, n>N)", "anchors": ["lasy/laser.py:Laser.propagate"]}
{"id": "C26", "title": "Output files are numbered consecutively and never clash within a laser", "statement": "The k-th successful write_to_file call of a laser (any arguments) writes iteration k-1; distinct successful calls with the same directory/prefix/format write distinct files, earlier files are untouched, and a failing write does not advance the counter.", "quantifier": "all call histories and arguments", "why_tests_cant": "unbounded histories; file-name injectivity for every iteration number", "anchors": ["lasy/laser.py:Laser.write_to_file", "lasy/utils/openpmd_output.py:write_to_openpmd_file"]}
{"id": "C27", "title": "openPMD mode conversion represents the same field", "statement": "For rt lasers, the real-mode data written to file satisfies, at every r, t and angle theta: data[0] + sum_m (data[2m-1] cos(m theta) + data[2m] sin(m theta)) = sum_{|m|<M} E_m exp(-i m theta), and the written data determines every E_m.", "quantifier": "all mode counts, fields, angles", "why_tests_cant": "continuum of angles and all mode counts", "anchors": ["lasy/utils/openpmd_output.py:write_to_openpmd_file"]}
{"id": "C28", "title": "xyt file round trip is lossless", "statement": "Writing an xyt laser with write_to_file and reading the envelope back with FromOpenPMDProfile, then building Laser on the same grid, gives exactly the same field at every grid point, and the same wavelength.", "quantifier": "all xyt lasers (uniform grids), all fields", "why_tests_cant": "transposition/offset mistakes vanish for symmetric data; phase unwrapping is data dependent", "anchors": ["lasy/utils/openpmd_output.py:write_to_openpmd_file", "lasy/utils/openpmd_input.py:reorder_array_xyt", "lasy/profiles/from_openpmd_profile.py:FromOpenPMDProfile", "lasy/profiles/from_array_profile.py:FromArrayProfile"]}
{"id": "C29", "title": "openPMD input reordering", "statement": "reorder_array returns, for every accepted axis order, the array indexed (x,y,t) resp. (r,t) with the physical coordinates of each sample preserved (z axes mapped to t=(z-z0)/c with reversed order); any other axis labelling raises AssertionError; in rt the result is the average of the two half planes, for every number of radial samples accepted.", "quantifier": "all shapes and axis orders", "why_tests_cant": "odd/even sizes, all orders", "anchors": ["lasy/utils/openpmd_input.py:reorder_array", "lasy/utils/openpmd_input.py:reorder_array_rt", "lasy/utils/openpmd_input.py:reorder_array_xyt"]}
{"id": "C30", "title": "get_full_field shows the field in the plane at angle theta", "statement": "For rt lasers get_full_field(theta) returns Re(E exp(-i omega0 t)) on the plane through the axis at angle theta: rows above the axis at (r, theta), rows below at (r, theta+pi).", "quantifier": "all lasers, angles, mode contents", "why_tests_cant": "tests only use mode 0", "anchors": ["lasy/utils/laser_utils.py:get_full_field"]}
{"id": "C31", "title": "show() displays the plane y=0 with the right sign for each mode", "statement": "For rt lasers the image shown is |E(x, y=0, t)|: rows above the axis are the reconstructed envelope at angle 0, rows below at angle pi, for every mode content. For xyt lasers it is |E| in the plane in the middle of the y axis, within half a cell of the centre of the box.", "quantifier": "all lasers and mode contents", "why_tests_cant": "plots are not tested", "anchors": ["lasy/laser.py:Laser.show"]}
{"id": "C32", "title": "get_full_field slices of xyt lasers are where they are said to be", "statement": "For xyt lasers get_full_field(slice=s, slice_axis=a) returns the slice at normalised position s in [-0.5,0.5] across the axis a (0 = centre, +-0.5 = edges) and an extent array that bounds the returned data.", "quantifier": "all sizes (odd and even), all s", "why_tests_cant": "index rounding for all sizes", "anchors": ["lasy/utils/laser_utils.py:get_full_field"]}
{"id": "C33", "title": "Spectrum integrates to the pulse energy", "statement": "For an envelope grid with all sampled frequencies non-negative, sum(get_spectrum)*d_omega = compute_laser_energy exactly (default method 'sum'), in both geometries and for every mode content.", "quantifier": "all fields and grids", "why_tests_cant": "checked for one Gaussian with tolerance", "anchors": ["lasy/utils/laser_utils.py:get_spectrum"]}
{"id": "C34", "title": "Pulse duration is the RMS width: shift and scale laws", "statement": "get_duration is >= 0, invariant under multiplying the field by any non-zero complex number and under shifting the time axis, scales with the time unit, and is 0 iff all energy is at one instant.", "quantifier": "all fields/grids with positive energy", "why_tests_cant": "identities over all inputs", "anchors": ["lasy/utils/laser_utils.py:get_duration", "lasy/utils/laser_utils.py:weighted_std"]}
{"id": "C35", "title": "Local frequency is exact for monochromatic and linearly chirped envelopes and always within the documented bounds", "statement": "get_frequency returns local frequencies within [lower_bound,upper_bound]*central_omega when central_omega > 0, and for an envelope A(x,y)*exp(-i*delta*t) with |delta|*dt < pi it returns exactly omega0+delta everywhere (when A nowhere vanishes) and as central frequency. More generally an envelope of positive amplitude a(i,j,t) and phase -(p0+delta*t+beta*t^2/2) advancing less than pi per sample has local frequency omega0+delta+beta*t at every sample, first and last included (replaced by the bound when outside the bounds), and central frequency equal to the amplitude-weighted mean; for a non-envelope rt field the weight is r times the amplitude, and length-1 axes are dropped from the result.", "quantifier": "all amplitudes, delta, grids", "why_tests_cant": "phase unwrapping behaviour over all data", "anchors": ["lasy/utils/laser_utils.py:get_frequency"]}
{"id": "C36", "title": "Field <-> vector potential conversion round-trips", "statement": "vector_potential_to_field(direct=False) applied to field_to_vector_potential returns the original field when no local frequency is clipped. The direct conversion (the default) is minus the time derivative of the potential a(t) exp(-i omega0 t), up to an error of at most M dt^2 with M a bound on the third derivative of the envelope.", "quantifier": "all such fields", "why_tests_cant": "data dependent unwrapping", "anchors": ["lasy/utils/laser_utils.py:field_to_vector_potential", "lasy/utils/laser_utils.py:vector_potential_to_field"]}
{"id": "C37", "title": "Real fields can be imported: field_to_envelope / create_grid", "statement": "create_grid accepts the arrays produced by reorder_array and gives the grid the axes it was passed (rejecting axes a Grid cannot represent), and field_to_envelope of a real field E(t)=cos(omega t) (resolved by the grid) returns omega as the central frequency.", "quantifier": "all resolved frequencies and grids", "why_tests_cant": "path not covered by any test", "anchors": ["lasy/utils/laser_utils.py:create_grid", "lasy/utils/laser_utils.py:field_to_envelope", "lasy/utils/laser_utils.py:get_frequency", "lasy/profiles/from_openpmd_profile.py:FromOpenPMDProfile"]}
{"id": "C38", "title": "Polarization is always a unit vector", "statement": "For every non-zero pol the stored polarization satisfies |px|^2+|py|^2=1 and is a positive multiple of the input; normalization is idempotent, so sums and scalings of profiles keep it.", "quantifier": "all non-zero complex pairs, all nested sums/scalings", "why_tests_cant": "identity over all inputs", "anchors": ["lasy/profiles/profile.py:Profile.__init__"]}
{"id": "C39", "title": "Profile arithmetic is pointwise linear", "statement": "For every expression built from profiles with + and scalar *, evaluate at any point equals the same expression of the summands' values; addition is commutative and associative and scaling distributes, as far as evaluate is concerned; non-profiles and non-numbers are rejected.", "quantifier": "all profile expressions and points", "why_tests_cant": "unbounded expression trees", "anchors": ["lasy/profiles/profile.py:SummedProfile", "lasy/profiles/profile.py:ScaledProfile", "lasy/profiles/transverse/transverse_profile.py:SummedTransverseProfile"]}
{"id": "C40", "title": "Only profiles of equal wavelength and polarization can be added", "statement": "p + q raises AssertionError whenever the wavelengths of p and q differ by more than a relative 1e-5.", "quantifier": "all wavelengths", "why_tests_cant": "np.allclose also has an absolute tolerance; tests use one gross mismatch", "anchors": ["lasy/profiles/profile.py:SummedProfile.__init__"]}
{"id": "C41", "title": "A laser built from a scaled or summed energy-normalized profile has a predictable energy", "statement": "Laser built from k*p, where p declares laser_energy, or from p+q: the energy attribute does not survive, so the field is the raw k*p.evaluate (no normalization).", "quantifier": "all profile expressions", "why_tests_cant": "needs all expression shapes", "anchors": ["lasy/profiles/profile.py:ScaledProfile", "lasy/laser.py:Laser.__init__"]}
{"id": "C42", "title": "GaussianProfile equals the documented formula", "statement": "GaussianProfile(wavelength,pol,E,w0,tau,t_peak,cep,z_foc).evaluate(x,y,t) with z_foc=0 is exp(-(x^2+y^2)/w0^2 - (t-t_peak)^2/tau^2 + i(cep+omega0 t_peak)); for any z_foc its modulus is (w0/w)exp(-(x^2+y^2)/w^2 - (t-t_peak)^2/tau^2) with w=w0 sqrt(1+(z_foc/z_R)^2), z_R=pi w0^2/lambda, independent of the order in which wavelength and z_foc are passed to the transverse profile.", "quantifier": "all parameters and points", "why_tests_cant": "continuous parameters; the constructor passes two arguments in swapped positions", "anchors": ["lasy/profiles/gaussian_profile.py:GaussianProfile.__init__", "lasy/profiles/transverse/gaussian_profile.py:GaussianTransverseProfile", "lasy/profiles/longitudinal/gaussian_profile.py:GaussianLongitudinalProfile"]}
{"id": "C43", "title": "Longitudinal envelopes: peak, bound, support and carrier phase", "statement": "Gaussian, super-Gaussian (order>0) and cosine envelopes have modulus <= 1 with equality at t_peak, have phase cep+omega0*t_peak there (so the carrier at t_peak has phase cep); the cosine envelope is exactly zero for |t-t_peak| >= tau_fwhm and non-zero inside; super-Gaussian of order 2 is the Gaussian; half the peak intensity is reached at the documented FWHM.", "quantifier": "all parameters and times", "why_tests_cant": "continuum of inputs", "anchors": ["lasy/profiles/longitudinal/gaussian_profile.py", "lasy/profiles/longitudinal/cosine_profile.py", "lasy/profiles/longitudinal/super_gaussian_profile.py"]}
{"id": "C44", "title": "Laguerre-Gaussian modes: azimuthal content and mirror symmetry", "statement": "LaguerreGaussianTransverseProfile(w0,p,m,...) at (r cos th, r sin th) equals exp(-i m th) times its value at (r,0), so Laser('rt') puts it in mode m only; and the mode with -m is the mirror image (y -> -y) of the mode with m, for every focus position.", "quantifier": "all p, m (both signs), focus positions, points", "why_tests_cant": "tests use one (p,m) in focus", "anchors": ["lasy/profiles/transverse/laguerre_gaussian_profile.py:LaguerreGaussianTransverseProfile"]}
{"id": "C45", "title": "set_offset shifts every transverse profile", "statement": "For every transverse profile p (including sums and scalings), p.set_offset(a,b).evaluate(x,y) equals the un-offset p.evaluate(x+a,y+b).", "quantifier": "all profile expressions, offsets and points", "why_tests_cant": "composite profiles are not tested with offsets", "anchors": ["lasy/profiles/transverse/transverse_profile.py:TransverseProfile.set_offset", "lasy/profiles/transverse/transverse_profile.py:SummedTransverseProfile.evaluate"]}
{"id": "C46", "title": "FromArrayProfile reproduces its data", "statement": "FromArrayProfile.evaluate returns exactly the array value at every grid node, zero outside the data range, and between nodes an amplitude within the range of the neighbouring amplitudes; for both supported axes_order values.", "quantifier": "all arrays, strictly increasing or strictly decreasing axes, points", "why_tests_cant": "phase unwrapping and interpolation are data dependent; axis order branch untested with asymmetric data", "anchors": ["lasy/profiles/from_array_profile.py:FromArrayProfile"]}
{"id": "C47", "title": "LongitudinalProfileFromData (temporal) reproduces its data inside the requested window and is zero outside", "statement": "With datatype 'temporal', evaluate at each retained sample time gives sqrt(intensity)*exp(-i phase); data may be given in increasing or decreasing time order; outside [lo,hi] the profile vanishes.", "quantifier": "all data arrays, windows and times", "why_tests_cant": "boundary handling of np.interp and argmin cropping", "anchors": ["lasy/profiles/longitudinal/longitudinal_profile_from_data.py:LongitudinalProfileFromData"]}
{"id": "C48", "title": "TransverseProfileFromData normalization and orientation", "statement": "For positive-sum data, the stored intensity satisfies sum(I)*dx*dy=1 with dx=(hi-lo)/n; evaluate at every data node returns the square root of the (rolled) intensity of that pixel with x along columns and y along rows, zero outside; centering rolls by whole pixels so the total is preserved and the pixel nearest the centre of mass moves to the central pixel.", "quantifier": "all images and bounds", "why_tests_cant": "axis order and rounding for all sizes", "anchors": ["lasy/profiles/transverse/transverse_profile_from_data.py:TransverseProfileFromData"]}
{"id": "C49", "title": "Image moments are translation-equivariant", "statement": "find_center_of_mass lies within the image, moves by exactly (a,b) when the (zero padded) image content moves by (a,b) pixels, is invariant under positive scaling; find_d4sigma is invariant under both; swapping the axes swaps the results.", "quantifier": "all non-negative images with positive sum", "why_tests_cant": "all sizes and contents", "anchors": ["lasy/utils/exp_data_utils.py:find_center_of_mass", "lasy/utils/exp_data_utils.py:find_d4sigma"]}
{"id": "C50", "title": "Zernike index conversion is the OSA/ANSI bijection", "statement": "get_zernike_nm(j) returns the unique (m,n) with n>=0, |m|<=n, n-m even and j=(n(n+2)+m)/2, for every j>=0; distinct j give distinct pairs and every admissible pair is hit.", "quantifier": "all natural j", "why_tests_cant": "unbounded index", "anchors": ["lasy/utils/zernike.py:get_zernike_nm"]}
{"id": "C51", "title": "Zernike polynomials: edge value, parity and azimuthal symmetry", "statement": "The radial part equals 1 on the pupil edge (rho=1) for every n>=|m| with n-|m| even, has the parity of m in rho, is 0 for odd n-|m|; zernike(x,y,pupil,j) depends on position only through ((x-cx)/r,(y-cy)/r).", "quantifier": "all n,m and radii", "why_tests_cant": "combinatorial identity for unbounded n", "anchors": ["lasy/utils/zernike.py:RmnGenerator", "lasy/utils/zernike.py:zernike"]}
{"id": "C52", "title": "Gerchberg-Saxton: iteration count, inputs untouched, amplitudes enforced", "statement": "gerchberg_saxton_algo with condition 'max_iterations' runs exactly max_iterations iterations (>=1), never modifies the two lasers passed in, and the returned phases are those of the last iterates; max_iterations=0 or an unknown condition raises instead of returning.", "quantifier": "all lasers, iteration counts, solvers", "why_tests_cant": "loop with unbounded count", "anchors": ["lasy/utils/phase_retrieval.py:gerchberg_saxton_algo"]}
{"id": "C53", "title": "Gerchberg-Saxton with 'amplitude_error' stops only when the residual is small", "statement": "With condition 'amplitude_error' the loop stops only when the summed absolute deviation of the reconstructed amplitude is at most amplitude_error times the summed amplitude, and respects max_iterations.", "quantifier": "all lasers and solvers", "why_tests_cant": "sign cancellation in the error sum is data dependent", "anchors": ["lasy/utils/phase_retrieval.py:gerchberg_saxton_algo"]}
{"id": "C54", "title": "Speckle pattern is the documented beamlet sum, bounded by the number of beamlets", "statement": "On separable xyt grids, at each time the SpeckleProfile envelope equals the documented double sum over beamlets (times the sinc envelope if requested); for RPP, CPP, FM SSD and GP RPM SSD its modulus never exceeds N_bx*N_by; the ISI time-series index is always within range when times are in [0,t_max].", "quantifier": "all beamlet counts, random draws, grids, times", "why_tests_cant": "random draws; all sizes", "anchors": ["lasy/profiles/speckle_profile.py:SpeckleProfile.generate_speckle_pattern", "lasy/profiles/speckle_profile.py:SpeckleProfile.beamlets_complex_amplitude", "lasy/profiles/speckle_profile.py:SpeckleProfile.evaluate"]}
{"id": "C55", "title": "Hermite-Gauss decomposition samples a window centred on the profile", "statement": "hermite_gauss_decomposition evaluates the profile on an even number of points per direction with spacing res covering the profile's own window in x and in y (shifted by its x and y offsets), and its weights are linear in the profile for a fixed waist.", "quantifier": "all profiles, offsets, resolutions", "why_tests_cant": "offset handling for x and y separately is untested", "anchors": ["lasy/utils/mode_decomposition.py:hermite_gauss_decomposition", "lasy/utils/mode_decomposition.py:estimate_best_HG_waist"]}
{"id": "C56", "title": "Analysis functions only read", "statement": "compute_laser_energy, get_spectrum, get_frequency, get_duration, field_to_vector_potential, vector_potential_to_field, Laser.get_full_field and Laser.show leave the laser unchanged: afterwards the grid has the same metadata and get_temporal_field / get_spectral_field return the same values as before, whether or not the call succeeded.", "quantifier": "every grid state (either or both representations valid, or none), every argument", "why_tests_cant": "The functions work in place on copies; a test can only check chosen fields and call orders, not every cache state.", "anchors": ["lasy/utils/laser_utils.py:compute_laser_energy", "lasy/utils/laser_utils.py:get_spectrum", "lasy/utils/laser_utils.py:get_frequency", "lasy/utils/laser_utils.py:get_duration", "lasy/utils/laser_utils.py:get_full_field", "lasy/laser.py:Laser.show", "lasy/utils/grid.py:Grid.get_temporal_field"]}
{"id": "C57", "title": "A transverse profile is unaffected by what is later done to other profiles", "statement": "Once built, a transverse profile (elementary, sum or scaling) evaluates to the same function whatever other profiles are later created from it or its parts, and whatever set_offset is later called on other profile objects.", "quantifier": "all programs over transverse profile objects (creation, +, *, set_offset in any order), all points", "why_tests_cant": "aliasing: it depends on the whole history of operations on shared objects", "anchors": ["lasy/profiles/transverse/transverse_profile.py:TransverseProfile.set_offset", "lasy/profiles/transverse/transverse_profile.py:SummedTransverseProfile", "lasy/profiles/transverse/transverse_profile.py:ScaledTransverseProfile"]}
{"id": "C58", "title": "z_foc moves a mode along a physical beam", "statement": "For GaussianTransverseProfile, HermiteGaussianTransverseProfile and LaguerreGaussianTransverseProfile, the family of profiles u(x,y,z) = profile with z_foc = zf - z is a solution of the paraxial wave equation with k = 2 pi / wavelength: profiles with different z_foc are cross sections of one propagating beam.", "quantifier": "all waists, wavelengths, focus positions, mode orders and points", "why_tests_cant": "a differential identity over a continuum of points, for every mode order", "anchors": ["lasy/profiles/transverse/gaussian_profile.py:GaussianTransverseProfile", "lasy/profiles/transverse/hermite_gaussian_profile.py:HermiteGaussianTransverseProfile", "lasy/profiles/transverse/laguerre_gaussian_profile.py:LaguerreGaussianTransverseProfile"]}
{"id": "C59", "title": "Longitudinal profile from spectral data: order-independent, normalised, centred", "statement": "With datatype 'spectral', LongitudinalProfileFromData gives the same profile whether the data are passed in increasing or decreasing order; its central wavelength is the intensity-weighted mean and lies within the data range; the modulus of evaluate never exceeds 1 at any time; the retained samples are equally spaced by dt between the samples nearest to lo and hi; without spectral phase the envelope is exactly 1 at the central sample (t=0, or -dt/2 for an odd sample count).", "quantifier": "all spectra, phases, dt, windows and evaluation times", "why_tests_cant": "all spectra, sampling parities and times", "anchors": ["lasy/profiles/longitudinal/longitudinal_profile_from_data.py:LongitudinalProfileFromData"]}
{"id": "C60", "title": "Longitudinal profile from spectral data has the measured spectrum", "statement": "At the retained samples the envelope is, up to one constant factor, the superposition of the waves of the measured spectrum, sum over the sampled frequencies f of sqrt(I(f)) exp(-i phase(f)) exp(-2 pi i (f-f0) t), in the library's convention that the field is envelope*exp(-i omega0 t).", "quantifier": "all spectra, phases, dt, windows", "why_tests_cant": "sign and frequency conventions are invisible for the symmetric spectra used in tests", "anchors": ["lasy/profiles/longitudinal/longitudinal_profile_from_data.py:LongitudinalProfileFromData"]}
{"id": "C61", "title": "Zernike modes are orthonormal over the pupil", "statement": "For every pupil and all indices j, k >= 0, the integral over the pupil (polar coordinates, weight rho d rho d theta, pupil radius as unit) of zernike(.., j) * zernike(.., k) is pi if j = k and 0 otherwise.", "quantifier": "all pupils and pairs of indices", "why_tests_cant": "a test checks a few low-order pairs with a quadrature error; orthogonality for all orders is a theorem about factorial sums", "anchors": ["lasy/utils/zernike.py:zernike", "lasy/utils/zernike.py:RmnGenerator", "lasy/utils/zernike.py:get_zernike_nm"]}
{"id": "C62", "title": "Gerchberg-Saxton never increases the mismatch", "statement": "With a diffraction solver that is linear, energy preserving and reversible, running gerchberg_saxton_algo for more iterations never increases the area-weighted squared mismatch between the amplitude obtained by propagating one plane's (amplitude, returned phase) to the other plane and the amplitude measured there; the mismatch in plane 2 after n iterations is at most that in plane 1.", "quantifier": "all pairs of lasers on the same grid, all distances, all n <= m, all lawful solvers", "why_tests_cant": "error reduction is a property of every field and every iteration count", "anchors": ["lasy/utils/phase_retrieval.py:gerchberg_saxton_algo", "lasy/laser.py:Laser.propagate"]}
{"id": "C63", "title": "Speckle intensity: lateral period and mean", "statement": "Without the sinc envelope, the intensity of the speckle profile is periodic in x and y with period wavelength*focal_length*N/aperture, and (for every smoothing type except GP ISI) its mean over one period sampled once per speckle width is exactly N_bx*N_by.", "quantifier": "all beamlet counts, apertures, random draws, times, grid origins", "why_tests_cant": "holds for every random draw and beamlet count", "anchors": ["lasy/profiles/speckle_profile.py:SpeckleProfile.evaluate", "lasy/profiles/speckle_profile.py:SpeckleProfile.generate_speckle_pattern"]}
{"id": "C64", "title": "Accepted SSD parameters give a finite field", "statement": "Whatever SSD parameters the constructor of SpeckleProfile accepts (it only requires one direction to be non-zero), the envelope consists of finite numbers.", "quantifier": "all SSD parameter pairs accepted", "why_tests_cant": "needs all parameter combinations, including one-directional dispersion", "anchors": ["lasy/profiles/speckle_profile.py:SpeckleProfile.__init__", "lasy/profiles/speckle_profile.py:SpeckleProfile.beamlets_complex_amplitude"]}
{"id": "C65", "title": "Speckle pattern on cylindrical grids", "statement": "On the (theta, r, t) arrays of a cylindrical Laser, the speckle envelope at each point is the documented field at that point's (x, y).", "quantifier": "all cylindrical grids", "why_tests_cant": "all grids", "anchors": ["lasy/profiles/speckle_profile.py:SpeckleProfile.generate_speckle_pattern"]}
{"id": "C66", "title": "Exact RMS of the random time series", "statement": "The generated Gaussian time series has a root-mean-square equal to the requested one, exactly, for any draws that are not all zero and any non-zero width, finite or infinite; a zero width gives zeros and a nan width nan.", "quantifier": "all lengths, steps, widths, draws", "why_tests_cant": "random draws", "anchors": ["lasy/profiles/speckle_profile.py:gen_gaussian_time_series"]}
{"id": "C67", "title": "Speckle profiles work for any time window", "statement": "evaluate returns, and the beamlet amplitudes follow their time series, for time windows located anywhere relative to t=0 (a Laser's usual window is centred on 0).", "quantifier": "all time axes", "why_tests_cant": "all windows", "anchors": ["lasy/profiles/speckle_profile.py:SpeckleProfile.evaluate", "lasy/profiles/speckle_profile.py:SpeckleProfile.beamlets_complex_amplitude"]}
{"id": "C68", "title": "Spectrum of the random time series", "statement": "The Gaussian time series has a Gaussian power spectrum, centred on frequency zero, with the requested full width at half maximum, for any number of samples.", "quantifier": "all lengths, steps, widths, draws", "why_tests_cant": "parity of the length and all draws", "anchors": ["lasy/profiles/speckle_profile.py:gen_gaussian_time_series"]}
{"id": "C69", "title": "Parity selection of the mode decomposition", "statement": "For a profile without offsets that is even (odd) in x or in y, every weight of a mode that is odd (even) in that direction is exactly zero.", "quantifier": "all profiles, resolutions, mode ranges", "why_tests_cant": "all profiles and resolutions; tests only check a few reconstructions to a tolerance", "anchors": ["lasy/utils/mode_decomposition.py:hermite_gauss_decomposition"]}
{"id": "C70", "title": "get_spectrum returns the spectrum of the pulse for every method", "statement": "For every grid, get_spectrum returns frequencies in increasing order (all non-negative frequencies of the discrete spectrum around omega0 for an envelope; the N/2 lowest for a real field) and, at each of them and each transverse point, the Fourier transform with exp(-i omega t) of the electric field restricted to positive frequencies ('raw'), its spectral energy density on axis ('on_axis') or integrated over the transverse plane ('sum'). The call does not change the grid; an envelope without omega0 is rejected.", "quantifier": "all grids after any history of calls, both geometries, envelopes and real fields, all methods and numbers of samples", "why_tests_cant": "equality of a sorted, filtered DFT with a Fourier sum at every frequency for every field and length, and absence of side effects for every history", "anchors": ["lasy/utils/laser_utils.py:get_spectrum"]}
{"id": "C71", "title": "The spectrum of a real field adds up to its energy", "statement": "For a real (non-envelope) field, the 'sum' spectrum times the frequency step adds up to compute_laser_energy.", "quantifier": "all real fields, all grid sizes, both geometries (one mode for rt)", "why_tests_cant": "Parseval identity for every field and every parity of the number of samples", "anchors": ["lasy/utils/laser_utils.py:get_spectrum", "lasy/utils/laser_utils.py:compute_laser_energy"]}
{"id": "C72", "title": "range and bins only interpolate the spectrum", "statement": "With range=(a,b), the 'sum' and 'on_axis' spectra are the piecewise linear interpolation of the unrestricted spectrum at bins equidistant frequencies from a to b, continued by the end values outside; 'raw' ignores the range; it is an error if no frequency was kept.", "quantifier": "all grids, ranges (inside or outside the spectrum), numbers of bins", "why_tests_cant": "holds for every position of every requested frequency relative to the discrete spectrum", "anchors": ["lasy/utils/laser_utils.py:get_spectrum"]}
{"id": "C73", "title": "get_full_field(Nt=n) resamples the field without changing it", "statement": "get_full_field(Nt=n) returns the field of get_full_field() at n times equally spaced over the laser's window (same extent, n columns): at a time that is a sample of the laser, the value shown without Nt; between two samples, modulus and phase of the envelope interpolated linearly (phase along the shorter way round) under the exact carrier, never larger than the larger neighbour. With n equal to the laser's own number of points the picture is the same as without Nt. The call never fails where the one without Nt succeeds, and only reads.", "quantifier": "all lasers after any history without radial resampling, all n, angles, slices and axes", "why_tests_cant": "no test passes Nt; equality must hold at every sample, row and phase", "anchors": ["lasy/utils/laser_utils.py:get_full_field"]}
{"id": "C74", "title": "FromInsightFile reproduces the measured field", "statement": "The profile made from an INSIGHT file has a positive frequency and, at every measured position (mm converted to m) and time (fs converted to s), envelope times exp(-i omega0 t) equals the measured complex field, or its conjugate when the data follows the opposite sign convention; the real field is the measured one in both cases. A given frequency is used as is (in modulus); the detected ones ('peak', 'barycenter') lie between the smallest and largest local frequency of the central column, 'peak' between those next to the brightest sample, so monochromatic data gives its exact frequency. Outside the measured region the profile is zero. Unknown detection methods are rejected.", "quantifier": "all files, frequencies, conventions and sampling points", "why_tests_cant": "the class is not tested at all (needs a measured file); exactness must hold for all data", "anchors": ["lasy/profiles/from_insight_file.py:FromInsightFile"]}
{"id": "C75", "title": "FromOpenPMDProfile reproduces the stored laser", "statement": "A profile built from an openPMD file has the wavelength of the stored angular frequency and takes, at every stored transverse point and at the time that sample passes a fixed plane (t axes as stored; z axes with t = (zmax - z)/c), the stored value; with a plane theta the mean of the two sides of that plane, at every azimuth. Without is_envelope, complex data are envelopes and real data electric fields. A laser written by Laser.write_to_file is read back exactly (Cartesian, or cylindrical with one azimuthal mode); with more modes the mean of the two sides of the plane is read. Electric fields are accepted and give their envelope.", "quantifier": "all fields, axis orders, grids, planes, lasers and histories before writing", "why_tests_cant": "the class has no test in the repository; exactness must hold for all stored data and axis orders", "anchors": ["lasy/profiles/from_openpmd_profile.py:FromOpenPMDProfile", "lasy/utils/openpmd_input.py:reorder_array", "lasy/utils/openpmd_output.py:write_to_openpmd_file"]}
{"id": "C76", "title": "Super-Gaussian and jinc transverse profiles have the documented shape", "statement": "SuperGaussianTransverseProfile(w0, n) with n > 0 is 1 on the axis, exp(-1) at radius w0 for every order, positive, axisymmetric and strictly decreasing with the radius; order 2 is the Gaussian profile in focus, order 1 the Laplace profile, and growing orders tend to a top hat of radius w0. JincTransverseProfile(w0) is real, axisymmetric, bounded by 1, equal to 1 on the axis only, and behaves near it as 2 J1(u)/u = 1 - u^2/8 + O(u^4) with u = r/w0, so it is continuous on the axis.", "quantifier": "all waists, orders and points", "why_tests_cant": "continuum of inputs and a limit", "anchors": ["lasy/profiles/transverse/super_gaussian_profile.py:SuperGaussianTransverseProfile", "lasy/profiles/transverse/jinc_profile.py:JincTransverseProfile"]}
{"id": "C77", "title": "Hermite-Gauss modes are orthonormal in every plane", "statement": "For any w0 > 0, wavelength and z_foc, the profiles returned by HermiteGaussianTransverseProfile(w0, n_x, n_y, wavelength, z_foc) for different orders are orthonormal: the integral of f conj(g) over the transverse plane is 1 if both orders agree and 0 otherwise. The overlap of a finite superposition with a mode is its coefficient, and its total power is the sum of the squared moduli of the coefficients.", "quantifier": "every waist, wavelength, focal distance, pair of orders, every finite set of complex coefficients", "why_tests_cant": "infinitely many pairs of orders and planes; the integral is over the whole plane, a test only sums a finite grid", "anchors": ["lasy/profiles/transverse/hermite_gaussian_profile.py: HermiteGaussianTransverseProfile.__init__, _evaluate"]}
{"id": "C78", "title": "Export to and import from the spatial domain are linear, consistent and inverse for plane pulses", "statement": "export_to_z leaves the grid unchanged, takes c times the time axis when no z axis is given, is linear in the field and, in rt, maps each azimuthal mode to itself. For a pulse uniform in x and y, with z0 = t0 = 0, the exported envelope at position z is the envelope at time -z/c (periodic over the time window), and import_from_z of the exported field on any uniform z axis with step c dt and as many points as times restores the field exactly. For other z0 and t0 both are the same up to a delay and a constant phase. import_from_z is linear in the imported field; it rejects a z axis of the wrong length; when it raises, the grid is left unchanged, and it never changes axes or limits.", "quantifier": "all grids and histories of grid calls, all omega0, z axes, z0, t0 (delay and round trip: transversally uniform xyt pulses), every axiprop behaviour meeting the stated contracts", "why_tests_cant": "universal over fields, axes and carrier frequencies; a test compares one Gaussian with a tolerance", "anchors": ["lasy/utils/laser_utils.py: export_to_z, import_from_z"]}
{"id": "C79", "title": "Laguerre-Gauss modes are mutually orthogonal in every plane", "statement": "For any w0 > 0, wavelength and z_foc, two profiles returned by LaguerreGaussianTransverseProfile(w0, p, m, wavelength, z_foc) that differ in the radial order p or the azimuthal order m are orthogonal: the integral of f conj(g) over the transverse plane is 0.", "quantifier": "every waist, wavelength, focal distance and pair of orders (p natural, m any integer)", "why_tests_cant": "infinitely many pairs of orders and planes; the integral is over the whole plane", "anchors": ["lasy/profiles/transverse/laguerre_gaussian_profile.py: LaguerreGaussianTransverseProfile.__init__, _evaluate"]}
{"id": "C80", "title": "z_foc does not change the power of a transverse mode", "statement": "The power (integral of |f|^2 over the transverse plane) of GaussianTransverseProfile, HermiteGaussianTransverseProfile and LaguerreGaussianTransverseProfile does not depend on z_foc.", "quantifier": "every waist, wavelength, focal distance and mode order", "why_tests_cant": "continuum of planes, infinitely many orders, integral over the whole plane", "anchors": ["lasy/profiles/transverse/gaussian_profile.py: GaussianTransverseProfile", "lasy/profiles/transverse/hermite_gaussian_profile.py: HermiteGaussianTransverseProfile", "lasy/profiles/transverse/laguerre_gaussian_profile.py: LaguerreGaussianTransverseProfile"]}
{"id": "C81", "title": "A spectral phase delays the pulse by its derivative", "statement": "apply_optics with an element whose factor is exp(i n dt (omega - omega0)) shifts the temporal field by n samples towards later times, around the periodic window, and changes nothing else. PolynomialSpectralPhase(gdd, tod, fod) moves the beat note of any two spectral lines later by the chord slope of gdd/2 u^2 + tod/6 u^3 + fod/24 u^4 between them (the group delay gdd u + tod/2 u^2 + fod/6 u^3 for close lines), without changing its shape: positive gdd delays high frequencies.", "quantifier": "every laser reachable by construction and any history of calls, every shift n, every gdd, tod, fod, every transverse position or azimuthal mode, every pair of frequencies", "why_tests_cant": "universal over fields, histories and dispersion coefficients; a sign error in both FFT convention and phase cancels in tests that only measure the pulse length", "anchors": ["lasy/optical_elements/polynomial_spectral_phase.py: PolynomialSpectralPhase.amplitude_multiplier", "lasy/laser.py: Laser.apply_optics", "lasy/utils/grid.py: Grid.get_spectral_field, get_temporal_field"]}
{"id": "C82", "title": "A parabolic mirror focuses beam modes by the ABCD law", "statement": "At the frequency omega = 2 pi c / lambda, multiplying a Gaussian, Hermite-Gauss or Laguerre-Gauss transverse profile of waist w0 and focus z_foc by the ParabolicMirror(f) factor gives, up to a constant, the profile of the same family and order whose complex beam parameter q = -z_foc + i pi w0^2/lambda obeys 1/q' = 1/q - 1/f; this image beam always exists. A collimated beam is focused f/(1+(f/zR)^2) ahead of the mirror, to the waist w0/sqrt(1+(zR/f)^2). For a laser built from GaussianProfile in xyt, apply_optics(ParabolicMirror(f)) turns the component at the central frequency into that beam on every grid point.", "quantifier": "every wavelength, waist, focus position, focal length (positive or negative), mode order, grid and requested energy", "why_tests_cant": "continuum of beam and mirror parameters and infinitely many orders; tests focus one Gaussian beam numerically and compare with a tolerance", "anchors": ["lasy/optical_elements/parabolic_mirror.py: ParabolicMirror.amplitude_multiplier", "lasy/profiles/transverse/gaussian_profile.py", "lasy/profiles/transverse/hermite_gaussian_profile.py", "lasy/profiles/transverse/laguerre_gaussian_profile.py", "lasy/laser.py: Laser.apply_optics"]}
{"id": "C83", "title": "Optical elements send the rays where their documentation says", "statement": "For a plane wave along the axis: all rays leaving ParabolicMirror(f) cross the axis at distance f, at every frequency; rays leaving Axicon(gamma) make the angle gamma with the axis, whatever the position and frequency; rays leaving Axiparabola(f0, delta, R) at radius r are focused at a distance that increases with r, from f0 at r = 0 to f0 + delta at r = R.", "quantifier": "every element parameter, transverse position and frequency", "why_tests_cant": "continuum of parameters and positions; needs derivatives of the phase", "anchors": ["lasy/optical_elements/parabolic_mirror.py: ParabolicMirror.amplitude_multiplier", "lasy/optical_elements/axicon.py: Axicon.amplitude_multiplier", "lasy/optical_elements/axiparabola.py: Axiparabola.amplitude_multiplier"]}
{"id": "C84", "title": "Lasers are independent objects", "statement": "In a program that creates several Laser and Grid objects, calling a method of one laser, of a Grid it does not use, or a constructor never changes another laser: the state of each laser (fields, axes, lo, hi, propagator) is what its own calls alone would have produced. A Grid object that a laser has left keeps consistent axes.", "quantifier": "every program: any number of Laser and Grid objects, any interleaving of constructor, Grid and Laser method calls, including propagate(..., grid=g) with Grid objects shared in any way, and calls that fail", "why_tests_cant": "unboundedly many interleavings and aliasing patterns; every test uses each laser on its own", "anchors": ["lasy/laser.py: Laser.__init__, Laser.propagate, Laser.apply_optics, Laser.normalize", "lasy/utils/grid.py: Grid"]}
{"id": "C85", "title": "field_to_envelope is a carrier-envelope split", "statement": "For a grid holding a real field, field_to_envelope (with scipy.signal.hilbert) turns the grid into an envelope grid with the same axes whose envelope reproduces the field: Re(envelope exp(-i w0 t)) equals the field at every point, w0 the returned frequency. For a carrier A(x,y) cos(w t + phi) with a whole number of periods in the window the envelope has modulus |A| and the carrier is removed: w0 = w and the envelope is A exp(-i phi).", "quantifier": "every real field, grid size (even or odd), frequency, amplitude, phase, dimension", "why_tests_cant": "holds for every sampled signal and size; needs the algebra of the DFT (doubling positive frequencies); tests look at one Gaussian pulse with tolerances", "anchors": ["lasy/utils/laser_utils.py: field_to_envelope, hilbert_transform, get_frequency, create_grid"]}
{"id": "C86", "title": "Energy and normalization converge to the physical ones", "statement": "When the grid is refined inside a fixed box, compute_laser_energy of a laser built from a profile without requested energy converges to the energy of the continuous envelope, (epsilon_0/2) int |E|^2 dV over the box (Cartesian) or over the cylindrical shell (rt, when the azimuthal modes resolve the profile), with an error at most proportional to the cell sizes. With laser_energy = E, the sampled field converges to the profile times sqrt(E/U), U the energy of the continuous envelope.", "quantifier": "every profile whose intensity is Lipschitz on the box, every box, all grid sizes (n0, n1, nt >= 2), every requested energy, every number of modes", "why_tests_cant": "a limit over unboundedly many grid sizes, for every smooth profile; a test sees one grid with a tolerance", "anchors": ["lasy/utils/laser_utils.py: compute_laser_energy, normalize_energy, get_grid_cell_volume", "lasy/laser.py: Laser.__init__", "lasy/profiles/profile.py: Profile.evaluate"]}
{"id": "C87", "title": "n-dimensional phase unwrapping changes only the frequency estimate", "statement": "With phase_unwrap_nd=True get_frequency and field_to_envelope use scikit-image's unwrapping instead of the per-cell one; without scikit-image they raise AssertionError. The option is ignored for envelopes. Whatever the unwrapping returns: get_frequency only reads the grid and its local frequencies lie within the bounds; field_to_envelope leaves the grid unchanged when it raises, and otherwise its envelope times exp(-i w0 t) has the original field as its real part and, for a carrier, the right modulus; if the unwrapped phase is linear in time at every transverse point, its slope is the returned frequency.", "quantifier": "every unwrapping function (or scikit-image missing), every grid and real field, all bounds and dimensions", "why_tests_cant": "the external unwrapping is arbitrary and may be absent; all fields, shapes and failure points are covered", "anchors": ["lasy/utils/laser_utils.py:get_frequency", "lasy/utils/laser_utils.py:field_to_envelope"]}
{"id": "C88", "title": "get_duration converges to the RMS duration of the pulse", "statement": "For a Laser built from a profile (with no requested energy or a positive one), get_duration approaches, as the grid is refined, the RMS duration sqrt(int (t-m)^2 |E|^2 / int |E|^2) of the continuous envelope over the box (m the energy-weighted mean time), on Cartesian and on cylindrical grids; for a GaussianProfile it approaches tau/2 as the time window grows as well.", "quantifier": "every profile with Lipschitz intensity (and resolved azimuthal content in rt), every box, every tolerance, all sufficiently fine grids; every parameter set of GaussianProfile", "why_tests_cant": "a limit statement over all profiles, boxes and resolutions; tests compare a few grids", "anchors": ["lasy/utils/laser_utils.py:get_duration", "lasy/laser.py:Laser.__init__", "lasy/profiles/gaussian_profile.py:GaussianProfile"]}
{"id": "C89", "title": "A GaussianProfile laser with requested energy has the textbook peak field", "statement": "A Laser built from GaussianProfile(laser_energy=E, w0, tau, ...) has as samples the profile (unit peak at focus) times a factor that approaches sqrt(E / ((eps0 c/2)(pi w0^2/2)(tau sqrt(pi/2)))) as the box and the resolution grow, whatever the focal distance, on Cartesian and cylindrical grids.", "quantifier": "every E >= 0, wavelength, waist, duration, focus, CEP, polarization, every tolerance, all sufficiently large boxes and fine grids, any number of azimuthal modes", "why_tests_cant": "a double limit over all parameters; tests check one laser to a tolerance", "anchors": ["lasy/profiles/gaussian_profile.py:GaussianProfile", "lasy/laser.py:Laser.__init__", "lasy/utils/laser_utils.py:normalize_energy"]}
{"id": "C90", "title": "get_spectrum converges to the spectrum of the pulse", "statement": "For a Laser built from a profile with Lipschitz envelope, the 'sum' spectrum returned by get_spectrum (no range given) is an array over the sorted non-negative DFT frequencies, and its value at every returned frequency approaches, uniformly within any band around omega0, the spectral energy of the continuous envelope over the box (eps0 c/pi |int E/2 e^{ivt} dt|^2 integrated over the transverse plane), scaled by requested energy / profile energy; on Cartesian grids, and on cylindrical grids for axisymmetric profiles. For GaussianProfile with requested energy E it approaches E tau/sqrt(2 pi) exp(-tau^2 (w-w0)^2/2) as the time window grows, whatever the transverse box and the focal distance.", "quantifier": "every profile with Lipschitz envelope (axisymmetric in rt), every box, band, tolerance and all sufficiently fine grids; every parameter set of GaussianProfile", "why_tests_cant": "a limit statement over all profiles, boxes, frequencies and resolutions; tests compare a few grids", "anchors": ["lasy/utils/laser_utils.py:get_spectrum", "lasy/laser.py:Laser.__init__", "lasy/profiles/gaussian_profile.py:GaussianProfile"]}
{"id": "C91", "title": "propagate shows one solution of the wave equation in successive planes", "statement": "Given a diffraction solver that is exact on the travelling waves its grid can hold, the field (envelope times exp(-i omega0 t)) that a Laser holds at its grid points and at its own times is the restriction to a plane z of a solution u(x,y,z,t) of the wave equation, and after any sequence of propagate calls the field held at the grid points and at the laser's new (advanced) times is the restriction of the same u to the plane z + sum of the distances: the time window, the frame-shift phase and the carrier agree. On Cartesian grids for every field whose carrier the grid resolves; on cylindrical grids for every superposition of Bessel waves the solver supports, at every angle, including propagation onto a resampling grid with the same modes.", "quantifier": "every reachable laser, every field (xyt) or supported superposition (rt), every list of distances and backends, every solver meeting the contract", "why_tests_cant": "ranges over all fields, grids, distances and call sequences; a test propagates one pulse once and compares its width", "anchors": ["lasy/laser.py:Laser.propagate", "lasy/utils/grid.py:Grid"]}
{"id": "C92", "title": "SpeckleProfile accepts exactly the documented parameters", "statement": "Constructing a SpeckleProfile succeeds if and only if the relative bandwidth is positive, the temporal smoothing type is one of the five supported ones, and, for the two SSD types, the modulation amplitudes, the colour cycles and the bandwidth distribution are all given with at least one positive entry each; every other combination raises. What is stored is what was passed, and the update interval is 1/(50 bandwidth).", "quantifier": "all wavelengths, apertures, beamlet counts, types, bandwidths and optional SSD parameters", "why_tests_cant": "a characterisation of acceptance over all parameter combinations", "anchors": ["lasy/profiles/speckle_profile.py:SpeckleProfile.__init__"]}
{"id": "C93", "title": "Propagation and optics act as a linear, time-invariant system", "statement": "Provided the diffraction solver is linear at each frequency, any sequence of propagate (with absorbing boundary, with a new radial grid, succeeding or failing), apply_optics and write_to_file calls acts on the spectral field by one transfer kernel that is the same for every profile with the same central frequency and for every choice of time origin; it does not mix frequencies and, in rt geometry, does not mix azimuthal modes. Hence: the laser built from a p + b q has, after the calls, a times the field of the laser of p plus b times that of q, on the same axes and with the same call outcomes; a profile delayed by tau on a window delayed by tau gives the same field samples on a time axis delayed by tau; a frequency or azimuthal mode with no field stays empty.", "quantifier": "all geometries, windows, profiles, complex coefficients, delays, and all finite call histories without normalize", "why_tests_cant": "quantifies over all fields and over all histories of calls", "anchors": ["lasy/laser.py:Laser.propagate", "lasy/laser.py:Laser.apply_optics", "lasy/laser.py:Laser.__init__", "lasy/profiles/profile.py:SummedProfile"]}
{"id": "C94", "title": "A spectral element can be placed anywhere in a history", "statement": "Applying an optical element whose multiplier depends on the frequency only (PolynomialSpectralPhase) before any sequence of propagate / apply_optics / write_to_file calls gives the same field on the same axes, and the same call outcomes, as applying it after them, whatever the solver as long as it is linear at each frequency; absorbing boundaries, resampling and failed calls included.", "quantifier": "all reachable lasers, all frequency-only elements, all histories without normalize", "why_tests_cant": "quantifies over all fields, elements and histories", "anchors": ["lasy/laser.py:Laser.apply_optics", "lasy/laser.py:Laser.propagate", "lasy/optical_elements/polynomial_spectral_phase.py"]}
{"id": "C95", "title": "normalize only rescales, wherever it stands in a history", "statement": "Removing the normalize calls (to positive values or None) from any history changes the final field only by one positive factor: same shape, same axes, same outcomes of the other calls. get_duration and the local frequency (get_frequency, envelope method) are unchanged, and the vector potential changes by the same factor. If the history ends with a normalization of the peak field, or of the (non-zero) energy, the final field does not depend on the normalizations before it at all.", "quantifier": "all reachable lasers with positive cells (every window with lo < hi), all histories with normalizations interleaved", "why_tests_cant": "quantifies over all fields and all interleavings", "anchors": ["lasy/laser.py:Laser.normalize", "lasy/laser.py:Laser.propagate", "lasy/laser.py:Laser.apply_optics", "lasy/utils/laser_utils.py:normalize_energy", "lasy/utils/laser_utils.py:normalize_peak_field_amplitude"]}
{"id": "C96", "title": "A combined profile makes a pulse that is a product in space and time", "statement": "A laser built from CombinedLongitudinalTransverseProfile(wavelength, pol, energy, long, trans) holds at every node one positive constant times trans(x, y) (in rt: the azimuthal component of trans) times long(t). It stays such a product under any sequence of purely spectral elements, normalizations and writes: the transverse factor is untouched and the time factor is the longitudinal profile filtered by the product of the elements' multipliers. Consequently get_duration depends only on the longitudinal profile, the time axis and the elements, not on the transverse profile, the geometry (rt or xyt), the transverse grid, the polarization or the energy; and when an energy is requested, multiplying trans and long by any non-zero complex constants u and v changes the field only by the constant phase u v/|u v|.", "quantifier": "every wavelength, polarization, longitudinal and transverse profile, window, grid size, requested energy and sequence of spectral elements, normalizations and writes", "why_tests_cant": "separability after arbitrary sequences and the independence of the duration from everything transverse range over all profiles, grids, geometries and histories", "anchors": ["lasy/profiles/combined_profile.py:CombinedLongitudinalTransverseProfile", "lasy/profiles/longitudinal/longitudinal_profile.py:LongitudinalProfile", "lasy/laser.py:Laser.__init__", "lasy/laser.py:Laser.apply_optics", "lasy/laser.py:Laser.normalize", "lasy/utils/laser_utils.py:get_duration"]}
{"id": "C97", "title": "A requested energy fixes the amplitude of any combined beam and pulse", "statement": "A Laser built from a CombinedLongitudinalTransverseProfile with laser_energy E holds, in every cell, a real factor s times trans(x,y)*long(t), and as the window grows and the grid is refined s tends to sqrt(2E/(eps0 c P D)), where P is the integral of |trans|^2 over the plane and D that of |long|^2 over time: P = 1 for every Hermite-Gaussian mode, pi w0^2/2 for a Gaussian, the Laguerre norm for a Laguerre-Gaussian mode, D = tau sqrt(pi/2) for a Gaussian pulse and tau_fwhm for a cosine one.", "quantifier": "all beams and pulses of finite power and duration (in particular every HG, LG and Gaussian mode, waist, focus position, pulse length), all energies, windows and resolutions beyond a bound", "why_tests_cant": "a limit over windows and resolutions, for infinitely many modes", "anchors": ["lasy/profiles/combined_profile.py:CombinedLongitudinalTransverseProfile", "lasy/laser.py:Laser.__init__", "lasy/utils/laser_utils.py:normalize_energy", "lasy/profiles/transverse/hermite_gaussian_profile.py:HermiteGaussianTransverseProfile", "lasy/profiles/transverse/laguerre_gaussian_profile.py:LaguerreGaussianTransverseProfile", "lasy/profiles/longitudinal/cosine_profile.py:CosineLongitudinalProfile"]}
{"id": "C98", "title": "Global phase and azimuthal rotation go through every history", "statement": "If the profile is multiplied by a constant phase factor (another carrier-envelope phase), then after any sequence of propagate, apply_optics, normalize (any kind and value) and write_to_file calls the temporal field is the original one times the same factor; every call ends the same way, and the axes and the computed energy are the same; so are get_duration, get_spectrum (methods sum and on_axis) and the image of show(). In rt geometry, if the azimuthal content of the profile fits the modes of the grid and the profile is turned about the propagation axis by an angle, then after any such sequence the field reconstructed from the stored modes is the original one turned by the same angle, with the same outcomes, axes, modulus of every mode and energy.", "quantifier": "all profiles (with or without a requested energy), phases, angles, mode counts, grids, number of sampled angles at least 2M-1, all linear solvers, all histories (including failing calls and resampling)", "why_tests_cant": "equivariance over arbitrary profiles, angles and call sequences of any length; a test fixes one profile and one sequence", "anchors": ["lasy/laser.py:Laser.__init__", "lasy/laser.py:Laser.normalize", "lasy/laser.py:Laser.apply_optics", "lasy/laser.py:Laser.propagate", "lasy/utils/laser_utils.py:normalize_energy", "lasy/utils/laser_utils.py:normalize_peak_field_amplitude", "lasy/utils/laser_utils.py:normalize_peak_intensity", "lasy/utils/laser_utils.py:compute_laser_energy"]}
{"id": "C99", "title": "Passive histories never create energy, at any frequency", "statement": "After construction on an ordered window, take any sequence of propagate calls (with or without absorbing layer, accepted or rejected), apply_optics calls with elements of modulus at most one, and writes. With a solver that conserves the energy of each frequency, the energy stored at every frequency, and the computed energy, never increase. If no layer is used and the transmission of every element depends on the frequency only, the energy at each frequency of the pulse's spectrum is the initial one times the product of the transmissions at that frequency; if all transmissions are one the computed energy is unchanged. The library's mirror, axicon, axiparabola and spectral phase qualify.", "quantifier": "all profiles, grids, earlier histories, sequences of passive calls of any length, frequencies, both geometries, all solvers conserving the energy per frequency", "why_tests_cant": "an invariant over call sequences of any length and arbitrary user-defined elements, frequency by frequency", "anchors": ["lasy/laser.py:Laser.propagate", "lasy/laser.py:Laser.apply_optics", "lasy/utils/laser_utils.py:compute_laser_energy", "lasy/optical_elements/parabolic_mirror.py:ParabolicMirror", "lasy/optical_elements/axicon.py:Axicon", "lasy/optical_elements/axiparabola.py:Axiparabola"]}
{"id": "C100", "title": "In double precision the time window keeps its ends, its order and its place over every history", "statement": "In IEEE double precision, after any sequence of successful propagate calls: the first and last entry of the time axis equal grid.lo[-1] and grid.hi[-1] bit for bit; the entries are still in non-decreasing order inside [lo, hi]; each entry differs from (initial position + sum of distance/c) by at most ((1+2^-53)^(n+4) - 1) times (|lo| + (hi-lo) + sum of |distance|/c), n the number of calls; and no two entries coincide while twice this error is below the time step (a long enough step does merge samples).", "quantifier": "all representable lo < hi, all numbers of samples up to 2^50, all sequences of distances (in the normal range), all samples", "why_tests_cant": "Rounding accumulates over unboundedly many calls and depends on every distance; tests only see a few histories and compare with tolerances.", "anchors": ["lasy/utils/grid.py:Grid.__init__", "lasy/laser.py:Laser.propagate"]}
{"id": "C101", "title": "In floating point, normalization hits the requested value to within a few roundings", "statement": "If every elementary operation has a relative error of at most u (double precision: 2^-53, no overflow or underflow) and the sum over the grid is made in any order, then the energy computed after normalize(en, 'energy') satisfies (1-u)^(q+10)/(1+u)^(p+5) <= energy/en <= (1+u)^(q+10)/(1-u)^(p+5), where p and q are the depths of the two summation trees; so it is within 2(p+q+15)u of en. The peak amplitude computed after normalize(amp, 'field') is within (1+u)^3/(1-u) of amp, whatever the size of the grid. The computed energy is the weighted sum of |E|^2 to within p+5 roundings, and the computed weights are never negative.", "quantifier": "all fields and grids, all roundings within the relative error bound, all summation orders, all positive requested values", "why_tests_cant": "The statement is about every rounding behaviour and every summation order (numpy's pairwise blocks, SIMD width, BLAS) and every array size.", "anchors": ["lasy/utils/laser_utils.py:compute_laser_energy", "lasy/utils/laser_utils.py:normalize_energy", "lasy/utils/laser_utils.py:normalize_peak_field_amplitude", "lasy/utils/laser_utils.py:get_grid_cell_volume", "lasy/laser.py:Laser.normalize"]}
{"id": "C102", "title": "The weights of the Hermite-Gauss decomposition converge to the overlap integrals", "statement": "For an analytic transverse profile without offsets (a finite w0, fields varying at a bounded rate on every square, not identically zero on |x|,|y| < 5 w0), hermite_gauss_decomposition returns, for every sufficiently fine resolution, a positive waist, and the weight of each requested mode (i, j) differs from the real part of the integral over |x|,|y| <= 5 w0 of field times the mode of that waist by at most a constant times the resolution; the constant does not depend on the resolution nor on how many modes are requested.", "quantifier": "all profiles with locally Lipschitz fields, all waists w0 > 0, all mode numbers, all resolutions below a bound that depends on the profile, all numbers of modes requested", "why_tests_cant": "It is a statement about the limit of ever finer grids, for a continuum of fields, with a uniform rate: the waist itself changes with the resolution.", "anchors": ["lasy/utils/mode_decomposition.py:hermite_gauss_decomposition", "lasy/utils/mode_decomposition.py:estimate_best_HG_waist", "lasy/profiles/transverse/hermite_gaussian_profile.py:HermiteGaussianTransverseProfile"]}
{"id": "C103", "title": "Mirror symmetry goes through every history", "statement": "For a Cartesian laser on a box centred along x (or y, or both), replace the profile by its mirror image under x -> -x (or y -> -y, or the half turn) and every optical element by its mirror image. With a diffraction solver that treats mirror images alike (the exact angular-spectrum method does, for every grid, including odd and even numbers of points), after any sequence of propagate (with absorbing layers), apply_optics, normalize (every kind) and write_to_file calls: every call ends the same way, the axes and the energy are the same, and each field sample is the sample of the first laser at the mirror-image grid point; get_duration and get_spectrum (method sum) return the same. In particular a symmetric pulse through symmetric optics has a symmetric field after every history.", "quantifier": "all profiles, boxes, resolutions, distances, optical elements, requests, all finite histories including failing calls, all mirror-symmetric solvers", "why_tests_cant": "A claim about all histories and all fields: the n-1-i versus n-i reflections of the grid and of the discrete frequencies, the two absorbing layers and the Nyquist frequency must agree at every step.", "anchors": ["lasy/laser.py:Laser.propagate", "lasy/laser.py:Laser.apply_optics", "lasy/laser.py:Laser.normalize", "lasy/utils/grid.py:Grid", "lasy/utils/laser_utils.py:normalize_energy", "lasy/utils/laser_utils.py:get_duration", "lasy/utils/laser_utils.py:get_spectrum"]}
{"id": "C104", "title": "No hidden length or time scale", "statement": "Multiply every length and time of a problem by s > 0: the box, the profile (wavelength, width, duration; energy by s^3), the propagation distances, the optical elements, the new grids and the requested energies (by s^3). In both geometries, with a diffraction solver that has no built-in length, after any history of calls: the scaled laser can be built exactly when the original can, every call ends the same way, the temporal and spectral samples are identical, axes and limits are s times as large, the energy is s^3 times, the duration s times, the frequencies of get_spectrum are divided by s with s^4 times the energy per frequency, the local frequencies of get_frequency (envelope method) and the fields of vector_potential_to_field are divided by s, the vector potential of field_to_vector_potential multiplied by s, and the images of get_full_field are the same on axes s times as long. The Gaussian, super-Gaussian, cosine and jinc profiles and the parabolic mirror, axicon, axiparabola and polynomial spectral phase built with scaled arguments are the scaled profiles and elements.", "quantifier": "all s > 0, all geometries, boxes, resolutions, profiles, optical elements, distances, new grids, requests, all finite histories including resampling and failing calls, all solvers without a built-in length", "why_tests_cant": "Dimensional consistency is a law for all scales and all histories at once; a wrong power of dt, c, dx or a hard-coded length shows only away from the units of the test cases.", "anchors": ["lasy/laser.py:Laser", "lasy/utils/grid.py:Grid", "lasy/utils/laser_utils.py:compute_laser_energy", "lasy/utils/laser_utils.py:get_duration", "lasy/utils/laser_utils.py:get_spectrum", "lasy/utils/laser_utils.py:get_full_field", "lasy/profiles/gaussian_profile.py:GaussianProfile", "lasy/optical_elements/axiparabola.py:Axiparabola"]}
{"id": "C105", "title": "Mirror symmetry of azimuthally decomposed lasers", "statement": "In rt geometry, replace the profile by its mirror image under y -> -y. With a diffraction solver that treats azimuthal orders m and -m alike, after any sequence of propagate (with absorbing layers, on a fixed radial grid), apply_optics, normalize (every kind) and write_to_file calls: every call ends the same way, the axes and the energy are the same, the stored mode m is the stored mode -m of the first laser, and the field reconstructed at angle theta is the first laser's at -theta; get_duration and get_spectrum (methods sum and on_axis) return the same. In particular a pulse symmetric in y keeps equal modes m and -m. No band limit on the profile and any accepted number of evaluation angles.", "quantifier": "all profiles, boxes, resolutions, numbers of modes, numbers of evaluation angles, distances, optical elements, requests, all finite histories without resampling including failing calls, all solvers blind to the sense of rotation", "why_tests_cant": "A claim about all histories and mode counts: the order in which the decomposition stores positive and negative modes, the sign of the transform over angles and the solver built for each slot must agree.", "anchors": ["lasy/laser.py:Laser.__init__", "lasy/laser.py:Laser.propagate", "lasy/laser.py:Laser.normalize", "lasy/utils/grid.py:Grid", "lasy/utils/laser_utils.py:get_duration", "lasy/utils/laser_utils.py:get_spectrum"]}
{"id": "C106", "title": "x and y are treated alike", "statement": "Exchange x and y everywhere in what the user passes: the box, the numbers of points, the profile, every optical element. With a diffraction solver that treats the two transverse directions alike (the exact angular-spectrum method does), after any sequence of propagate (with absorbing layers), apply_optics, normalize and write_to_file calls on a Cartesian laser: every call ends the same way, the axes are exchanged, energy, duration and spectrum are the same (get_spectrum for every method, range, bins and omega0; a spectrum per transverse point is transposed), every field sample is the transposed sample, and the image of a slice at constant x is the image of the slice at constant y of the first laser. In particular a pulse symmetric under the exchange on a square grid keeps a symmetric field.", "quantifier": "all profiles, boxes, resolutions, distances, optical elements, requests, all finite histories including failing calls, all exchange-symmetric solvers", "why_tests_cant": "A claim about all histories and fields; tests use square grids and round pulses, on which mixing up the two axes is invisible.", "anchors": ["lasy/laser.py:Laser.propagate", "lasy/laser.py:Laser.apply_optics", "lasy/utils/grid.py:Grid", "lasy/utils/laser_utils.py:get_full_field", "lasy/utils/laser_utils.py:get_duration", "lasy/utils/laser_utils.py:get_spectrum"]}
{"id": "C107", "title": "No preferred place or instant", "statement": "For a Cartesian (xyt) laser, translating the whole experiment changes nothing but the axes: if the window given to Laser, the profile and every optical element are displaced by (a, b) across and c in time, then Laser can be constructed again, every call (propagate with or without absorbing layer, apply_optics, normalize of every kind, write_to_file, including the failing ones) has the same outcome, the axes are the displaced axes, the stored field has the same samples, compute_laser_energy, get_duration, get_spectrum (methods sum and on_axis, any range, bins and omega0) return the same numbers, show() plots the same image with displaced extent, get_frequency, field_to_vector_potential and vector_potential_to_field return the same arrays, and (when c = 0) get_full_field returns the same image with displaced extent for every slice and slice_axis.", "quantifier": "all displacements, windows, samples, profiles, energies, optical elements and call histories; every solver that depends only on the samples inside the window", "why_tests_cant": "A hidden dependence on the absolute position (a centre assumed at 0, an axis taken instead of a spacing, an index found from a coordinate) shows only for off-centre windows and particular histories; the claim ranges over all of them.", "anchors": ["lasy/laser.py:Laser.__init__", "lasy/laser.py:Laser.propagate", "lasy/laser.py:Laser.apply_optics", "lasy/laser.py:Laser.show", "lasy/utils/laser_utils.py:get_duration", "lasy/utils/laser_utils.py:get_spectrum", "lasy/utils/laser_utils.py:get_full_field"]}
