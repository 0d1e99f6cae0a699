{"id": "C01", "title": "RM-synthesis is linear in the Stokes spectra", "statement": "For spectra with the same flagged channels, the Faraday spectrum of a*(Q1,U1)+b*(Q2,U2) returned by do_rmsynth_planes is a*FDF1+b*FDF2, with the same weights, grid and reference wavelength.", "quantifier": "all spectra, all flag patterns, all weights, all Faraday depth grids, all real a,b, any number of channels and pixels", "why_tests_cant": "linearity is a statement about every pair of inputs and every channel count; a test checks a few spectra to a tolerance", "anchors": ["RMutils/util_RM.py:do_rmsynth_planes"]}
{"id": "C02", "title": "A Faraday-thin source produces a copy of the RMSF at its RM", "statement": "For a source p*exp(2i(psi+RM*lambda^2)), the synthesised spectrum on the grids the tools build is p*exp(2i(psi+RM*lambda0^2))*RMSF(phi-RM): its amplitude never exceeds p and equals p at phi=RM.", "quantifier": "every p>=0, psi, RM, channel set, non-negative weights with positive sum, every symmetric grid", "why_tests_cant": "tests compare one simulated source to stored numbers", "anchors": ["RMutils/util_RM.py:do_rmsynth_planes", "RMutils/util_RM.py:get_rmsf_planes", "RMtools_1D/do_RMsynth_1D.py:run_rmsynth"]}
{"id": "C03", "title": "Flagged channels do not influence the result", "statement": "Setting Q or U of a channel to NaN in a pixel gives that pixel exactly the spectrum obtained by deleting the channel from its data (same reference wavelength); a NaN weight acts as weight zero, and a channel flagged in all pixels acts as weight zero.", "quantifier": "every cube, every flag pattern, every weight vector", "why_tests_cant": "the number of flag patterns is exponential in the number of voxels", "anchors": ["RMutils/util_RM.py:do_rmsynth_planes"]}
{"id": "C04", "title": "Only relative weights matter", "statement": "Multiplying every channel weight by the same positive constant leaves the Faraday spectrum, the reference wavelength and the RMSF unchanged.", "quantifier": "every weight vector with non-zero sum, every c>0, every cube", "why_tests_cant": "quantifies over all weight vectors and scale factors", "anchors": ["RMutils/util_RM.py:do_rmsynth_planes", "RMutils/util_RM.py:get_rmsf_planes"]}
{"id": "C05", "title": "Pixels of a cube are processed independently", "statement": "The spectrum returned for one pixel of a cube equals the spectrum returned for that pixel alone at the same reference wavelength; changing any other pixel without fully flagging or unflagging a plane cannot change it.", "quantifier": "every cube size, every pixel, every content of the other pixels", "why_tests_cant": "a test cannot vary all other pixels", "anchors": ["RMutils/util_RM.py:do_rmsynth_planes"]}
{"id": "C06", "title": "The reference wavelength only rotates the phase", "statement": "Changing lambda0^2 from a to b multiplies the Faraday spectrum at depth phi by exp(2i*phi*(b-a)); the polarized-intensity spectrum, and so every peak position, is unchanged.", "quantifier": "every spectrum, weights, grid, every pair of reference wavelengths", "why_tests_cant": "all pairs of reference values and all depths", "anchors": ["RMutils/util_RM.py:do_rmsynth_planes"]}
{"id": "C07", "title": "RMSF normalisation, bound and symmetry; both computation paths agree", "statement": "For non-negative weights with positive sum the RMSF is 1 at depth 0, never exceeds 1 in amplitude, and is conjugate-symmetric. The whole-plane path and the per-pixel path of get_rmsf_planes give the same RMSF on symmetric grids when nothing is partially flagged, and the per-pixel RMSF is the one of the pixel's unflagged channels.", "quantifier": "every channel set, weights, flags and grid", "why_tests_cant": "tests evaluate a few grids", "anchors": ["RMutils/util_RM.py:get_rmsf_planes"]}
{"id": "C08", "title": "The spectrum is evaluated at the Faraday depths the caller passed", "statement": "do_rmsynth_planes returns, at index k, the transform at phiArr[k], for every grid passed by the caller.", "quantifier": "every Faraday depth array, symmetric or not", "why_tests_cant": "the repository only tests symmetric grids; the statement is about all arrays", "anchors": ["RMutils/util_RM.py:do_rmsynth_planes", "RMutils/util_RM.py:get_rmsf_planes"]}
{"id": "C09", "title": "The Faraday depth grid is odd, symmetric, uniform and covers the requested range", "statement": "For any phiMax and non-zero dPhi the grid used by rmsynth1d and rmsynth3d has an odd number of samples, contains 0 at its centre, satisfies phi[n-1-k]=-phi[k], has constant spacing dPhi and reaches |phiMax| to within |dPhi|/2.", "quantifier": "every real phiMax and non-zero dPhi", "why_tests_cant": "depends on rounding of an arbitrary ratio", "anchors": ["RMtools_1D/do_RMsynth_1D.py:run_rmsynth", "RMtools_3D/do_RMsynth_3D.py:run_rmsynth"]}
{"id": "C10", "title": "The RMSF grid extends the FDF grid far enough for CLEAN", "statement": "The doubled grid has nPhi+2*ceil(nPhi/2) samples with the spacing of the FDF grid, contains the FDF grid as a contiguous block, is centred on the same depth, and every shift CLEAN can request stays inside it.", "quantifier": "every grid length, every peak position", "why_tests_cant": "every pair (length, position) including the edges", "anchors": ["RMutils/util_RM.py:get_rmsf_planes", "RMutils/util_RM.py:extrap", "RMutils/util_RM.py:RMcleaner"]}
{"id": "C11", "title": "The Faraday depth axis survives the FITS header", "statement": "Writing the depth axis of a Faraday cube to the header (CRPIX, CRVAL, CDELT) and reading it back with fits_make_lin_axis returns the original depth array.", "quantifier": "every uniform increasing grid of at least two samples", "why_tests_cant": "round trip over all grids; involves truncation of a computed channel count", "anchors": ["RMtools_3D/do_RMsynth_3D.py:writefits", "RMutils/util_RM.py:fits_make_lin_axis"]}
{"id": "C12", "title": "CLEAN conserves the data", "statement": "At every moment of RM-CLEAN the dirty spectrum equals the residual plus, for every clean component, the component times the RMSF shifted to that component's depth.", "quantifier": "every dirty spectrum, RMSF, gain, cutoff, window, iteration limit; every number of iterations", "why_tests_cant": "loop invariant over an unbounded number of iterations", "anchors": ["RMutils/util_RM.py:RMcleaner", "RMutils/util_RM.py:do_rmclean_hogbom"]}
{"id": "C13", "title": "The restored spectrum is components times beam plus residual", "statement": "The returned clean spectrum equals the sum over depth channels of (clean component)*(Gaussian of the given FWHM centred there) plus the residual, and the component array holds exactly the sum of what was subtracted.", "quantifier": "every input and every iteration count", "why_tests_cant": "loop invariant", "anchors": ["RMutils/util_RM.py:RMcleaner", "RMutils/util_RM.py:do_rmclean_hogbom", "RMutils/util_RM.py:gauss1D"]}
{"id": "C14", "title": "CLEAN terminates as documented", "statement": "The loop performs at most maxIter iterations in total, stops in the first phase only when the residual peak is below the cutoff or the limit is reached, and in the windowed phase only when the peak inside the windows is below the window threshold or the limit is reached.", "quantifier": "every input, all loop histories", "why_tests_cant": "termination and exit condition over all executions", "anchors": ["RMutils/util_RM.py:RMcleaner"]}
{"id": "C15", "title": "CLEAN shifts the RMSF without wrap-around", "statement": "The RMSF subtracted for a component at channel i is, at channel j, the RMSF sample at offset (j-i) from the RMSF peak; no sample from the opposite end of the RMSF array is ever used.", "quantifier": "every grid length, every component position", "why_tests_cant": "boundary positions; roll-and-clip index arithmetic", "anchors": ["RMutils/util_RM.py:RMcleaner"]}
{"id": "C16", "title": "CLEAN of a single source converges geometrically", "statement": "For a dirty spectrum that is a single on-grid component A times the RMSF, each iteration multiplies the residual by (1-gain), every component lands on the true channel, and after n iterations the component there is A*(1-(1-gain)^n).", "quantifier": "every A, gain, RMSF with a unique peak, every n", "why_tests_cant": "unbounded iteration count", "anchors": ["RMutils/util_RM.py:RMcleaner"]}
{"id": "C17", "title": "Clean components predict the data CLEAN removed", "statement": "RM-synthesis (same channels, weights, reference wavelength) of the Q,U spectrum predicted from the clean components equals dirty minus residual at every depth.", "quantifier": "every spectrum, component set and iteration count on the tools' grids", "why_tests_cant": "relates three tools for all inputs", "anchors": ["RMtools_1D/clean_model.py:calculate_QU_model", "RMutils/util_RM.py:do_rmsynth_planes", "RMutils/util_RM.py:RMcleaner"]}
{"id": "C18", "title": "Pixels below the cutoff are left alone", "statement": "A pixel whose peak amplitude is below the cutoff gets zero iterations, zero components, and its clean spectrum equals its dirty spectrum.", "quantifier": "every cube, every pixel", "why_tests_cant": "all cubes", "anchors": ["RMutils/util_RM.py:do_rmclean_hogbom"]}
{"id": "C19", "title": "Parallel CLEAN gives the same products as serial CLEAN", "statement": "Running RM-CLEAN of a cube through a worker pool returns the same clean cube, residual cube, component cube and iteration-count map as running it without a pool.", "quantifier": "every cube, every pool and chunk size, every schedule of the workers", "why_tests_cant": "every schedule and every cube; the repository tests only compare spectra from one run", "anchors": ["RMutils/util_RM.py:do_rmclean_hogbom", "RMutils/util_RM.py:RMcleaner"]}
{"id": "C20", "title": "Windowed CLEAN only adds components near earlier ones", "statement": "In the windowed phase, components are added only in channels within half an RMSF width of a channel that received a component in the first phase, and every channel within that distance may receive one.", "quantifier": "every input, every position of first-phase components including the band edges", "why_tests_cant": "edge positions and unbounded histories", "anchors": ["RMutils/util_RM.py:RMcleaner"]}
{"id": "C21", "title": "Splitting a cube into chunks and reassembling returns the cube", "statement": "assemble_chunks applied to the files produced by create_chunks returns the original cube, for 2-, 3- and 4-dimensional images, and file-name order is chunk order.", "quantifier": "every image shape, content and chunk size", "why_tests_cant": "all shapes, all chunk sizes incl. non-dividing ones, all chunk counts (name padding)", "anchors": ["RMtools_3D/create_chunks.py:main", "RMtools_3D/assemble_chunks.py:main"]}
{"id": "C22", "title": "A missing chunk never leaves a plausible-looking output", "statement": "assemble_chunks with a chunk missing stops with an error and does not create or overwrite the output image.", "quantifier": "every subset of chunk files present, every pre-existing output", "why_tests_cant": "crash points and missing-file subsets", "anchors": ["RMtools_3D/assemble_chunks.py:main"]}
{"id": "C23", "title": "extract_region keeps sky coordinates and pixel values", "statement": "The sub-image contains exactly the requested 1-based inclusive pixel box clipped to the image, for 2-, 3- and 4-dimensional images, its header dimensions equal its data dimensions, the world coordinate of every kept pixel is unchanged, and -1 selects the image limit.", "quantifier": "every image shape and box", "why_tests_cant": "all boxes including clipped, degenerate and -1 ones", "anchors": ["RMtools_3D/extract_region.py"]}
{"id": "C24", "title": "Cubes are read and written with axes in the right place", "statement": "Reading a cube moves the frequency axis first without changing any voxel, whatever its position; writing results puts the Faraday depth axis back where frequency was, every voxel at the same sky position.", "quantifier": "every axis order with 3 or 4 axes, every shape", "why_tests_cant": "all axis orders and shapes", "anchors": ["RMtools_3D/do_RMsynth_3D.py:readFitsCube", "RMtools_3D/do_RMsynth_3D.py:writefits", "RMtools_3D/do_RMsynth_3D.py:find_freq_axis"]}
{"id": "C25", "title": "rmclean3d returns cubes in the input axis order", "statement": "The clean, residual and component cubes have exactly the shape and axis order of the input cube, for every position of the Faraday depth axis and every axis length.", "quantifier": "every 3- or 4-axis shape, including axes of length one", "why_tests_cant": "degenerate axes", "anchors": ["RMtools_3D/do_RMclean_3D.py:run_rmclean"]}
{"id": "C26", "title": "Removing spectral axes from a header keeps the rest", "statement": "Making a 2D header deletes all keywords of the third and fourth axes (and cross terms), keeps every other keyword, and leaves the coordinate axis count consistent.", "quantifier": "every header", "why_tests_cant": "all headers", "anchors": ["RMutils/util_misc.py:remove_header_third_fourth_axis", "RMutils/util_misc.py:update_position_wcsaxes"]}
{"id": "C27", "title": "Changing the Stokes I reference frequency does not change the model", "statement": "renormalize_StokesI_model returns parameters that give the same Stokes I at every frequency, for linear and log models; applying it twice equals applying it once with the final frequency; the reported parameter errors are those obtained by propagating the fit covariance.", "quantifier": "every parameter vector, covariance, pair of positive frequencies, every evaluation frequency", "why_tests_cant": "all frequencies and parameters; error formulas have 21 covariance terms", "anchors": ["RMutils/util_misc.py:renormalize_StokesI_model", "RMutils/util_misc.py:calculate_StokesI_model"]}
{"id": "C28", "title": "Dynamic order selection returns the best of the orders it tried", "statement": "With a negative polynomial order -n the selected fit has the lowest AIC among all orders it evaluated, orders are evaluated from 0 upward, at most |n|+1 of them, stopping at the first one that does not improve; with a non-negative order exactly that order is used.", "quantifier": "every outcome of the fitter for every order", "why_tests_cant": "all sequences of AIC values", "anchors": ["RMutils/util_misc.py:fit_StokesI_model"]}
{"id": "C29", "title": "Fractional spectra are consistent with the Stokes I model", "statement": "q*Imodel=Q and u*Imodel=U on channels with a non-zero model, the quoted errors follow from error propagation, values that are not finite become NaN in value and error, and the fit status carries the negative-model and low-signal flags exactly when those conditions hold; if the fit fails the model is exactly one.", "quantifier": "every spectrum, errors, model and fit outcome", "why_tests_cant": "all spectra and fitter outcomes", "anchors": ["RMutils/util_misc.py:create_frac_spectra"]}
{"id": "C30", "title": "Peak interpolation is the exact parabola through three points", "statement": "calc_parabola_vertex returns the vertex of the unique parabola through three points with distinct abscissae; for three samples of any parabola it recovers its vertex; for a symmetric peak it returns the centre.", "quantifier": "every three points with distinct x and non-zero curvature", "why_tests_cant": "all real triples", "anchors": ["RMutils/util_misc.py:calc_parabola_vertex"]}
{"id": "C31", "title": "Reported peak parameters are consistent", "statement": "measure_FDF_parms reports a peak in a non-edge channel of maximal amplitude, angles in [0,180), derotated angle equal to angle minus RM*lambda0^2 modulo 180, a bias-corrected amplitude never larger than the fitted one, and for a single noise-free source at a grid depth exactly its RM, angle and amplitude.", "quantifier": "every spectrum and grid with at least three channels", "why_tests_cant": "all spectra; end-to-end exactness", "anchors": ["RMutils/util_RM.py:measure_FDF_parms"]}
{"id": "C32", "title": "sigma_add quantiles are ordered and come from the likelihood", "statement": "The sigma_add percentiles come from a cumulative distribution that is non-decreasing and ends at 1; the median lies between the lower and upper bound, so both quoted errors are non-negative.", "quantifier": "every data vector and error vector", "why_tests_cant": "all inputs", "anchors": ["RMutils/util_RM.py:calc_sigma_add", "RMutils/util_RM.py:cdf_percentile"]}
{"id": "C33", "title": "Simulated spectra follow the documented depolarisation laws", "statement": "create_pqu_spectra_burn follows Burn's external depolarisation exp(-2 sigma^2 lambda^4) as QU-fitting model 2 does, and create_pqu_spectra_diff follows the stacked-slab formula.", "quantifier": "every parameter set and wavelength", "why_tests_cant": "all parameters", "anchors": ["RMutils/util_misc.py:create_pqu_spectra_burn", "RMutils/util_misc.py:create_pqu_spectra_diff", "RMtools_1D/models_ns/m2.py:model"]}
{"id": "C34", "title": "QU-fitting models are mutually consistent", "statement": "Each model reduces to its simpler relative when the extra parameters vanish or coincide, is 180-degree periodic in every angle, is bounded in amplitude by the sum of fractional polarisations, and obeys superposition.", "quantifier": "every parameter set and wavelength", "why_tests_cant": "all parameters", "anchors": ["RMtools_1D/models_ns"]}
{"id": "C35", "title": "QU-fitting likelihood and information criteria are the standard ones", "statement": "The log-likelihood differs between two parameter sets by minus half the chi-squared difference; its value is the Gaussian log-likelihood of the data; AIC, AICc and BIC are the standard criteria computed from it.", "quantifier": "every data set and parameter sets", "why_tests_cant": "all data sets", "anchors": ["RMtools_1D/do_QUfit_1D_mnest.py:lnlike_call", "RMtools_1D/do_QUfit_1D_mnest.py:run_qufit"]}
{"id": "C36", "title": "Angle wrapping in QU-fitting reports a valid angle", "statement": "The reported polarisation angle lies in [0,180) and is congruent modulo 180 to the median of the rotated samples; wrapping a chain keeps every sample congruent modulo the range and inside one period around the best fit.", "quantifier": "every sample set in [0,180)", "why_tests_cant": "all posteriors", "anchors": ["RMtools_1D/do_QUfit_1D_mnest.py:run_qufit", "RMtools_1D/do_QUfit_1D_mnest.py:wrap_chains"]}
{"id": "C37", "title": "The channel rotation operator is the average rotation over the channel", "statement": "rotation_operator(width,centre,phi) equals the mean over the channel's frequency range of exp(2i phi c^2/nu^2); it has modulus at most 1, equals 1 at phi=0, and is conjugated when phi changes sign.", "quantifier": "every channel with positive edges and every phi", "why_tests_cant": "continuous integral identity", "anchors": ["RMtools_1D/rmtools_bwdepol.py:rotation_operator", "RMtools_1D/rmtools_bwdepol.py:rotation_integral_limit"]}
{"id": "C38", "title": "Bandwidth-depolarisation-corrected synthesis recovers the true amplitude", "statement": "For a thin source averaged over the channels, the adjoint spectrum at its RM divided by the theoretical sensitivity equals the source's intrinsic amplitude; sensitivity lies in [0,1] and equals 1 at zero depth.", "quantifier": "every source, channel set and weights", "why_tests_cant": "all inputs", "anchors": ["RMtools_1D/rmtools_bwdepol.py:do_adjoint_rmsynth_planes", "RMtools_1D/rmtools_bwdepol.py:adjoint_theory"]}
{"id": "C39", "title": "The bandwidth-depolarisation tool accepts all documented inputs and saves a consistent RMSF", "statement": "All four documented column layouts are processed, verbose output works, and the saved RMSF file pairs every RMSF sample with the depth it was computed at.", "quantifier": "every data file in a documented layout, every flag combination", "why_tests_cant": "all layouts and flags", "anchors": ["RMtools_1D/rmtools_bwdepol.py:run_adjoint_rmsynth", "RMtools_1D/rmtools_bwdepol.py:bwdepol_get_rmsf_planes", "RMtools_1D/do_RMsynth_1D.py:saveOutput"]}
{"id": "C40", "title": "Single-pixel extraction from FITS uses the requested pixel and rejects only blank pixels", "statement": "The tool processes the spectra at the 1-based pixel asked for and stops with 'All QU values zero' exactly when Q and U are both zero in every channel.", "quantifier": "every cube, every pixel coordinate", "why_tests_cant": "all cubes and coordinates", "anchors": ["RMtools_1D/do_RMsynth_1D_fromFITS.py:main"]}
{"id": "C41", "title": "CLEAN thresholds: negative means multiples of the noise", "statement": "A negative cutoff (or window) -k behaves exactly like the positive cutoff k*noise; a non-negative one is used as is; without a window no windowed phase runs.", "quantifier": "every cutoff, noise level", "why_tests_cant": "all values", "anchors": ["RMtools_1D/do_RMclean_1D.py:run_rmclean", "RMtools_3D/do_RMclean_3D.py:run_rmclean"]}
{"id": "C42", "title": "Companion file names are derived from the file name given", "statement": "Given any one of the tot/real/imaginary cube names inside any directory, the tools open the real and imaginary cubes in that same directory.", "quantifier": "every directory and prefix", "why_tests_cant": "all path strings", "anchors": ["RMtools_3D/do_RMclean_3D.py:read_FDF_cubes", "RMtools_3D/RMpeakfit_3D.py:read_files"]}
{"id": "C43", "title": "Rescaling a Stokes I model cube keeps the model", "statement": "rescale_I_model_3D writes, for each pixel, coefficients that describe the same Stokes I spectrum about the new reference frequency, in the pixel they came from, with no coefficient plane lost, and the new reference frequency is c/lambda0.", "quantifier": "every coefficient cube, every image shape", "why_tests_cant": "all cubes", "anchors": ["RMtools_3D/rescale_I_model_3D.py"]}
{"id": "C44", "title": "Stokes I cube fitting puts every result in its own pixel", "statement": "Each pixel's model spectrum, coefficients and status come from that pixel's input spectrum, masked pixels get none, whatever the mask.", "quantifier": "every cube, every mask", "why_tests_cant": "all masks", "anchors": ["RMtools_3D/do_fitIcube.py:make_model_I"]}
{"id": "C45", "title": "Peak maps hold the maximum and where it occurs", "statement": "The peak maps give, per pixel, the largest amplitude of the Faraday spectrum and the depth of its first occurrence; fully blank pixels give NaN in both.", "quantifier": "every cube", "why_tests_cant": "all cubes", "anchors": ["RMtools_3D/do_RMsynth_3D.py:create_peak_maps"]}
{"id": "C46", "title": "3D peak fitting isolates failures", "statement": "Every pixel gets the parameters measured from its own spectrum; a pixel whose measurement fails gets NaN in every map and affects no other pixel.", "quantifier": "every cube, every set of failing pixels", "why_tests_cant": "all failure sets", "anchors": ["RMtools_3D/RMpeakfit_3D.py:pixelwise_peak_fitting"]}
{"id": "C47", "title": "Catalogue files are parsed as documented", "statement": "Comment and blank lines are ignored, every remaining line yields its comma-separated fields, repeated groups become columns, and the columns mean what the tool's help says.", "quantifier": "every catalogue file", "why_tests_cant": "all files", "anchors": ["RMutils/util_misc.py:csv_read_to_list", "RMutils/util_misc.py:split_repeat_lst", "RMtools_1D/mk_test_ascii_data.py:create_IQU_ascii_data"]}
{"id": "C48", "title": "The noise estimator is translation invariant and scales with the data", "statement": "MAD(x+c)=MAD(x), MAD(a*x)=|a|*MAD(x), MAD ignores NaNs, is non-negative and does not change when samples are permuted.", "quantifier": "every array", "why_tests_cant": "all arrays", "anchors": ["RMutils/util_misc.py:MAD"]}
{"id": "C49", "title": "The theoretical FDF noise is the propagated channel noise", "statement": "With inverse-variance weights the quoted FDF noise is |I0|/sqrt(sum 1/sigma^2); with uniform weights it is |I0|*sqrt(sum sigma^2)/N; no weighting gives less than inverse-variance weighting.", "quantifier": "every error vector and weights", "why_tests_cant": "optimality over all weights", "anchors": ["RMtools_1D/do_RMsynth_1D.py:run_rmsynth"]}
{"id": "C50", "title": "Stokes I at the reference frequency in 3D synthesis is interpolated", "statement": "The Stokes I value used to scale the Faraday cube is the linear interpolation of the two channels bracketing the reference frequency, for ascending and descending frequency axes.", "quantifier": "every frequency axis, every Stokes I cube", "why_tests_cant": "all axes and boundary positions", "anchors": ["RMtools_3D/do_RMsynth_3D.py:run_rmsynth", "RMutils/util_misc.py:interp_images"]}
{"id": "C51", "title": "The second moment of the clean components is a width", "statement": "calc_mom2_FDF is non-negative, does not change when all depths are shifted or the spectrum is scaled or rotated, scales with the depths, is undefined only for an empty spectrum, and is zero exactly when all components are at one depth.", "quantifier": "every spectrum and list of depths of the same length", "why_tests_cant": "all spectra, exact zero set", "anchors": ["RMutils/util_misc.py:calc_mom2_FDF", "RMutils/util_RM.py:measure_fdf_complexity"]}
{"id": "C52", "title": "The signal-to-noise spectrum of the bandwidth-depolarisation tool peaks at the source", "statement": "With inverse-variance weights, the amplitude of the adjoint spectrum of a thin source divided by the theoretical noise is largest at the source's depth, and the peak channel the tool selects attains that maximum when the source's depth is a sampled, non-edge one.", "quantifier": "every thin source, channel set, and channel errors", "why_tests_cant": "an inequality between all depths for all channel sets and errors", "anchors": ["RMtools_1D/rmtools_bwdepol.py:do_adjoint_rmsynth_planes", "RMtools_1D/rmtools_bwdepol.py:adjoint_theory", "RMtools_1D/rmtools_bwdepol.py:bwdepol_measure_FDF_parms", "RMtools_1D/rmtools_bwdepol.py:run_adjoint_rmsynth"]}
{"id": "C53", "title": "The bandwidth-depolarisation tool scales by the Stokes I model at the reference frequency", "statement": "The Stokes I value reported at the reference frequency, by which the spectrum is scaled, is the value of the fitted Stokes I model there.", "quantifier": "every data set and every fitted model", "why_tests_cant": "every model curve", "anchors": ["RMtools_1D/rmtools_bwdepol.py:run_adjoint_rmsynth", "RMutils/util_misc.py:create_frac_spectra", "RMutils/util_misc.py:calculate_StokesI_model"]}
{"id": "C54", "title": "Predicted sensitivity and noise of the observing set-up", "statement": "The sensitivities predicted by rmtools_bwpredict are between 0 and 1 and are 1 at the first depth; the normalised noise is 1 there, is at most 1, and is the square root of the sensitivity.", "quantifier": "every frequency set, channel widths, depth range and step", "why_tests_cant": "every channel set", "anchors": ["RMtools_1D/rmtools_bwpredict.py:bwdepol_compute_predictions", "RMtools_1D/rmtools_bwdepol.py:adjoint_theory"]}
{"id": "C55", "title": "The depth the bandwidth-depolarisation tool reports is that of its peak channel", "statement": "The fitted depth is within one step of the channel with the largest signal-to-noise ratio and the fitted amplitude is at least the normalised amplitude there.", "quantifier": "every spectrum, sensitivity and noise", "why_tests_cant": "all spectra, including those whose sensitivity varies across a peak", "anchors": ["RMtools_1D/rmtools_bwdepol.py:bwdepol_measure_FDF_parms"]}
{"id": "C56", "title": "The 1-D tool returns the Faraday spectrum of its input", "statement": "For every input table a run of rmtools_1d that ends returns, on an odd grid centred on zero whose step and range are those asked for or the documented defaults, the weighted Fourier sum of the fractional polarisation of the channels with Q, U and a Stokes I model, times Stokes I at the reference frequency c/lambda0; the weights it saves are one or the inverse variance of the fractional polarisation.", "quantifier": "every table with columns of one length and positive frequencies, every option, every result of the two external fitters", "why_tests_cant": "all tables, flag patterns and options at once", "anchors": ["RMtools_1D/do_RMsynth_1D.py:run_rmsynth"]}
{"id": "C57", "title": "The 1-D tool's spread function and channel metadata describe the channels of the spectrum", "statement": "The saved spread function is that of the channels of the spectrum, on a grid of the same step and twice the width; the channel count and band edges are those of the channels used, and the reference frequency lies between the band edges.", "quantifier": "every input and option", "why_tests_cant": "all flag patterns", "anchors": ["RMtools_1D/do_RMsynth_1D.py:run_rmsynth"]}
{"id": "C58", "title": "The 1-D tool recovers a Faraday-thin source", "statement": "If every finite sample is that of a thin source whose depth is on the grid and the grid has no alias of it, the tool reports that depth, amplitude p I(nu0), the angle at lambda0 and at zero wavelength modulo 180 degrees, and a fractional polarisation of p, debiased above a signal-to-noise ratio of 5.", "quantifier": "every thin source, frequency coverage, weighting, flag pattern and Stokes I model", "why_tests_cant": "all sources and coverages", "anchors": ["RMtools_1D/do_RMsynth_1D.py:run_rmsynth", "RMutils/util_RM.py:measure_FDF_parms"]}
{"id": "C59", "title": "The 1-D tool ends on every usable input", "statement": "A run ends with a result whenever there are two different frequencies, the errors used as weights do not cancel, the grid has more than one depth and there is signal at some depth of it.", "quantifier": "every input and every option, including a Stokes I table and super-resolution", "why_tests_cant": "all option combinations", "anchors": ["RMtools_1D/do_RMsynth_1D.py:run_rmsynth"]}
{"id": "C60", "title": "The 1-D tool's theoretical noise", "statement": "dFDFth is |I(nu0)| sqrt(sum (w s)^2) / sum w with s the noise of the fractional polarisation of a channel, and |I(nu0)| / sqrt(sum w) with inverse-variance weights.", "quantifier": "every input and option", "why_tests_cant": "all error columns", "anchors": ["RMtools_1D/do_RMsynth_1D.py:run_rmsynth"]}
{"id": "C61", "title": "A Stokes I table is interpolated at the reference frequency; without Stokes I the I columns are ignored", "statement": "With a table of Stokes I values the spectrum is scaled by the linear interpolation between the two channels next to the reference frequency, in whatever order the channels are; with the no-Stokes-I option the result does not depend on the I columns and equals that of the five-column input.", "quantifier": "every table, every channel order", "why_tests_cant": "all orders", "anchors": ["RMtools_1D/do_RMsynth_1D.py:run_rmsynth"]}
{"id": "C62", "title": "The 1-D tool reports what it measures on the spectrum it saves", "statement": "The reported peak parameters are the measurement of the saved spectrum with the saved spread-function width, noise and reference wavelength; the width is 3.8 over the range of wavelength squared unless a fit is asked for and succeeds, in which case it is the fitted one of the saved spread function; the fractional polarisation is the debiased amplitude over Stokes I at the reference; the complexity values are those of the residuals of Q/I and U/I against the reported Faraday-thin source in units of the errors, one channel per sample, of Q, of U and of both together; the median error is of (dQ+dU)/2 in input units and the median channel width of consecutive channels.", "quantifier": "every run that ends", "why_tests_cant": "all inputs and options; any fitter", "anchors": ["RMtools_1D/do_RMsynth_1D.py:run_rmsynth", "RMutils/util_RM.py:measure_qu_complexity", "RMutils/util_RM.py:get_rmsf_planes"]}
{"id": "C63", "title": "The 3-D tool ends and every voxel it writes is the spectrum of the channels at that sky position", "statement": "For Q, U and optional Stokes I cubes with the same axes, a frequency for each channel and at least two different frequencies, the run ends and writes the files asked for. Every file has the axes of the input with the spectral axis replaced by the Faraday depth axis, whose header gives the depths used: 2h+1 equally spaced depths centred on zero that reach the maximum within half a step. Each voxel of the dirty cube is the weighted Fourier sum of the channels that have Q, U and Stokes I there, about the reference wavelength, times Stokes I at the reference frequency, and blank where the spectrum is blank. The reference wavelength is the weighted mean over channels with data somewhere, or zero with super-resolution. Each voxel of the spread-function cube is that of the channels with Q, on twice the range. The peak maps hold the largest modulus along each spectrum and its depth; the width map holds 3.8 over the range of wavelength squared or the fitted width.", "quantifier": "every number and order of axes with at most two sky axes kept, all cubes, options, noise lists and pixels", "why_tests_cant": "all shapes, axis orders and flag patterns", "anchors": ["RMtools_3D/do_RMsynth_3D.py:run_rmsynth", "RMtools_3D/do_RMsynth_3D.py:writefits", "RMtools_3D/do_RMsynth_3D.py:readFitsCube", "RMutils/util_RM.py:do_rmsynth_planes", "RMutils/util_RM.py:get_rmsf_planes"]}
{"id": "C64", "title": "A Faraday-thin source put into the cubes comes out of the files and of the peak maps", "statement": "At a sky position with a Faraday-thin source at a depth of the grid, whatever channels are flagged, each voxel of the dirty cube is amplitude times Stokes I times phase times the spread function of the channels there; the dirty cube is the saved spread-function cube shifted and scaled when the flags of Q are those of the spectrum; the maximum map shows amplitude times Stokes I and the depth map the source's depth; and feeding the files to the peak-fitting tool gives maps with the depth, amplitude, index, reference angle, intrinsic angle, Stokes I and reference wavelength of the source.", "quantifier": "all cubes, sources, sky positions and flags; two channels that tell the depths apart", "why_tests_cant": "end to end over two tools and their files", "anchors": ["RMtools_3D/do_RMsynth_3D.py:run_rmsynth", "RMtools_3D/do_RMsynth_3D.py:writefits", "RMtools_3D/do_RMsynth_3D.py:readFitsCube", "RMutils/util_RM.py:do_rmsynth_planes", "RMutils/util_RM.py:get_rmsf_planes", "RMtools_3D/RMpeakfit_3D.py:pixelwise_peak_fitting"]}
{"id": "C65", "title": "The spectrum of a pixel depends only on that pixel, and agrees with the 1-D tool", "statement": "Two cubes, of whatever shape and axis order, that have the same spectrum at some pixel give there the same dirty spectrum up to the phase of a change of reference wavelength. A voxel of the cube equals the sample that the 1-D tool gives for the same columns, weights and Stokes I, up to that phase and the scale of Stokes I at the reference frequency.", "quantifier": "all pairs of cubes, pixels, text files and options", "why_tests_cant": "relates runs of different programs", "anchors": ["RMtools_3D/do_RMsynth_3D.py:run_rmsynth", "RMtools_3D/do_RMsynth_3D.py:writefits", "RMtools_3D/do_RMsynth_3D.py:readFitsCube", "RMutils/util_RM.py:do_rmsynth_planes", "RMutils/util_RM.py:get_rmsf_planes", "RMtools_1D/do_RMsynth_1D.py:run_rmsynth"]}
{"id": "C66", "title": "Cubes of every shape are scaled by Stokes I, and the spread function is that of the channels of the spectrum", "statement": "A Stokes I cube scales each spectrum by Stokes I of its own pixel whatever the shape of the image; the spread function at a pixel is that of the channels used in the spectrum there.", "quantifier": "every shape and flag pattern", "why_tests_cant": "degenerate axes", "anchors": ["RMtools_3D/do_RMsynth_3D.py:run_rmsynth", "RMtools_3D/do_RMsynth_3D.py:writefits", "RMtools_3D/do_RMsynth_3D.py:readFitsCube", "RMutils/util_RM.py:do_rmsynth_planes", "RMutils/util_RM.py:get_rmsf_planes"]}
{"id": "C67", "title": "Simulated data hold the sources of the catalogue, and the synthesis tools find them", "statement": "The I, Q and U cubes made from a catalogue hold, in every voxel that is not flagged, the sum of the catalogue's sources, each spread by the beam at its position, plus the noise asked for, on the axes and frequencies written beside them; the spectra made from it hold one source each. Without noise, a Faraday-thin source at a depth of the grid is reported by the cube tool and by the 1-D tool with the rotation measure, amplitude and angle of the catalogue.", "quantifier": "every catalogue text, beam, frequency range, flag list, noise curve and random numbers", "why_tests_cant": "the tests compare one simulated data set with stored numbers", "anchors": ["RMtools_3D/mk_test_cube_data.py:create_IQU_cube_data", "RMtools_1D/mk_test_ascii_data.py:create_IQU_ascii_data", "RMutils/util_misc.py:twodgaussian", "RMtools_3D/do_RMsynth_3D.py:run_rmsynth", "RMtools_1D/do_RMsynth_1D.py:readFile", "RMtools_1D/do_RMsynth_1D.py:run_rmsynth"]}
{"id": "C68", "title": "The fit never makes things worse, and the numbers it reports belong to its result", "statement": "A call of the least-squares fitter that ends returns parameters whose chi squared is at most that of the starting values, keeps every fixed parameter, takes at most 200 iterations and gives a reason between 1 and 8; reason 4 means that every slope is orthogonal to the residuals to 1e-10; an optimal start is returned unchanged; the chi squared reported is that of the parameters returned. The Stokes I fit built on it ends for every spectrum whose mean is not zero and whose weighted mean has at least half of it, fits no worse than the mean, and has no coefficient above the order asked for.", "quantifier": "every residual function, number of parameters and data, set of fixed parameters and starting values; every Stokes I spectrum with errors, order and fitting function", "why_tests_cant": "the tests fit a few spectra and compare stored numbers", "anchors": ["RMutils/mpfit.py:mpfit.__init__", "RMutils/mpfit.py:mpfit.fdjac2", "RMutils/mpfit.py:mpfit.enorm", "RMutils/util_misc.py:fit_spec_poly5", "RMutils/util_misc.py:fit_StokesI_model", "RMutils/util_misc.py:renormalize_StokesI_model"]}
{"id": "C69", "title": "The linear algebra of the fitter solves what it says it solves", "statement": "The pivoted factorisation has the columns of the matrix, permuted, as the product of an orthogonal and a triangular matrix; the step solves the damped normal equations, and the undamped ones if their solution lies within 1.1 of the trust region; the covariance is the inverse of the normal matrix of the slopes, zero for fixed parameters, and the errors are the roots of its diagonal.", "quantifier": "matrices of every size with independent columns, every damping, trust region and residual", "why_tests_cant": "needs all matrices; a wrong damped step still converges on the easy spectra the tests use", "anchors": ["RMutils/mpfit.py:mpfit.qrfac", "RMutils/mpfit.py:mpfit.qrsolv", "RMutils/mpfit.py:mpfit.lmpar", "RMutils/mpfit.py:mpfit.calc_covar"]}
{"id": "C70", "title": "Linear models are fitted exactly", "statement": "If the residuals are linear in the free parameters and the starting values are within reach of the first trust region, the fit ends within two iterations at the least-squares solution (or stays at a start that is optimal to 1e-10) with the inverse of the normal matrix as covariance. A Stokes I fit of order zero is the weighted mean with error one over the root of the sum of weights. A Stokes I spectrum that is a polynomial of degree up to five without noise is found exactly, and the fractional spectra are then Q/I and U/I.", "quantifier": "every linear residual function, every spectrum, errors and degree", "why_tests_cant": "ranges over all spectra and polynomials", "anchors": ["RMutils/mpfit.py:mpfit.__init__", "RMutils/util_misc.py:fit_spec_poly5", "RMutils/util_misc.py:fit_StokesI_model", "RMutils/util_misc.py:create_frac_spectra", "RMutils/util_misc.py:poly5", "RMutils/util_misc.py:powerlaw_poly5"]}
{"id": "C71", "title": "The 1-D CLEAN tool", "statement": "Given the products of the synthesis tool with a non-zero theoretical noise, rmclean1d ends. The dirty spectrum is the residual plus the response of the components to the shifted spread function, the clean spectrum is the components convolved with the restoring beam plus the residual, the loop ended at the iteration limit or below the threshold (flux, or a multiple of the theoretical noise if negative; with a window the components' depths are below the window threshold), the reported numbers are those of the parabola through the peak of the clean spectrum, the errors are those of the theoretical noise rescaled to the noise seen in the spectrum, and the second moment of the components is zero exactly for one depth.", "quantifier": "every spectrum, grid, spread function, threshold, gain, iteration limit and window", "why_tests_cant": "ranges over all spectra, thresholds and iteration counts", "anchors": ["RMtools_1D/do_RMclean_1D.py:run_rmclean", "RMtools_1D/do_RMclean_1D.py:readFiles", "RMutils/util_RM.py:do_rmclean_hogbom", "RMutils/util_RM.py:measure_fdf_complexity"]}
{"id": "C72", "title": "Synthesis then CLEAN of a thin source", "statement": "A noise-free Faraday-thin source at a depth of the grid, synthesised by rmsynth1d and cleaned by rmclean1d, leaves one component at its depth holding 1-(1-gain)^k of its complex amplitude, and (1-gain)^k of the dirty spectrum as residual, where k is the reported number of iterations: the first with (1-gain)^k times the amplitude below the threshold, or the limit. The clean spectrum reports the depth, the amplitude and both angles of the source exactly, whatever k is, and a second moment of zero.", "quantifier": "every source, channel set, Stokes I model, weighting, grid that is not aliased, threshold, gain in (0,1] and iteration limit", "why_tests_cant": "ranges over all sources, bands, grids and iteration counts", "anchors": ["RMtools_1D/do_RMsynth_1D.py:run_rmsynth", "RMtools_1D/do_RMclean_1D.py:run_rmclean", "RMutils/util_RM.py:do_rmclean_hogbom", "RMutils/util_RM.py:measure_FDF_parms"]}
{"id": "C73", "title": "Q and U predicted from clean components", "statement": "The model of clean_model.py is the saved Stokes I model times the sum of the components rotated to each channel; for a thin source put through synthesis and CLEAN it is the observed Q and U times the cleaned share. (As coded it is too large by the Stokes I flux at the reference frequency, and the command line never runs.)", "quantifier": "every set of components, Stokes I coefficients and channels; every thin source through the three tools", "why_tests_cant": "ranges over all component spectra and all runs of three tools", "anchors": ["RMtools_1D/clean_model.py:calculate_QU_model", "RMtools_1D/clean_model.py:read_files", "RMtools_1D/clean_model.py:main", "RMtools_1D/do_RMsynth_1D.py:run_rmsynth"]}
{"id": "C74", "title": "NUFFT and direct sums agree", "statement": "do_rmsynth_planes returns, on any grid, what the direct summation of the package's own reference (tests/nufft_test.py) returns on the negated, reversed grid; on grids symmetric about zero the two return the same arrays, blanks, reference wavelength and errors for all data, flags and weights. The same holds for get_rmsf_planes on symmetric grids.", "quantifier": "every data cube of one to three axes, flags, weights, reference wavelength and grid", "why_tests_cant": "the package's test compares the two on one random cube; this ranges over all inputs", "anchors": ["tests/nufft_test.py:do_rmsynth_planes_old", "tests/nufft_test.py:get_rmsf_planes_old", "RMutils/util_RM.py:do_rmsynth_planes", "RMutils/util_RM.py:get_rmsf_planes"]}
{"id": "C75", "title": "The deprecated routines against the current ones", "statement": "The deprecated do_rmsynth ends on all valid data and returns the Faraday spectrum of the good channels times the share of the total weight they carry, hence the values of do_rmsynth_planes where only whole channels are flagged (and too small ones where single voxels are). The deprecated do_rmclean, given a spread function on a grid extending the one of the spectrum, ends where do_rmclean_hogbom does, with the same components, residual and number of iterations if the latter has no deeper window; its clean spectrum restores the components with the constant 4 ln 2 rounded to twelve digits.", "quantifier": "every spectrum or cube, flags, weights, increasing grid, threshold, gain and iteration limit", "why_tests_cant": "ranges over all spectra and iteration counts", "anchors": ["RMutils/util_RM.py:do_rmsynth", "RMutils/util_RM.py:get_RMSF", "RMutils/util_RM.py:do_rmclean", "RMutils/util_RM.py:do_rmclean_hogbom"]}
{"id": "C76", "title": "One weight per voxel", "statement": "With a cube of weights, threeDnoise_do_rmsynth_planes returns in every pixel the Faraday spectrum of its good channels under its own weights about its own mean wavelength (or that of the map given), which is the result of do_rmsynth_planes where the weights of each channel are the same everywhere; threeDnoise_get_rmsf_planes returns the spread function of every pixel under its own weights. (As coded, documented inputs fail: weights or unweighted data of one or two axes, and a single reference wavelength; the spread function ignores the wavelength asked for.)", "quantifier": "every cube, flags, weights and grid", "why_tests_cant": "ranges over all cubes and weights", "anchors": ["RMutils/util_RM.py:threeDnoise_do_rmsynth_planes", "RMutils/util_RM.py:threeDnoise_get_rmsf_planes", "RMutils/util_RM.py:do_rmsynth_planes"]}
{"id": "C77", "title": "The width of the spread function is fitted to its main lobe", "statement": "On a Faraday depth grid symmetric about zero and short enough to hold no alias of the peak, get_rmsf_planes fits the samples of |RMSF| joined to the peak at zero above 0.4. If no sample or only the peak is above, or none falls below, status is -1 and the width is 3.8 over the wavelength-squared span; otherwise, for a lobe above the straight lines from its peak to 0.4, the fit ends with a status from 1 to 8, and the Gaussian of the width returned is no further (least squares) from the samples than the Gaussian of height one at zero as wide as the lobe.", "quantifier": "every channel list, flags, non-negative weights, grid and pixel", "why_tests_cant": "ranges over all spread functions and all runs of the fitter", "anchors": ["RMutils/util_RM.py:get_rmsf_planes", "RMutils/util_RM.py:fit_rmsf", "RMutils/util_RM.py:detect_peak", "RMutils/mpfit.py:mpfit"]}
{"id": "C78", "title": "rmtools_calcRMSF reports the numbers of the spread function", "statement": "From a file of frequencies (with or without weights) or a first, last and step, rmtools_calcRMSF computes the squared wavelengths and prints 3.8 over their span, the fitted width of the RMSF (the analytic one if the fit fails), pi over the smallest, sqrt 3 over the median channel width, and position and height in percent of the highest local maximum at positive depths, if there is one. Without options the grid has 101 depths, a tenth of 2 sqrt 3 over the span apart; if no alias of the peak fits on the doubled grid, the sidelobe is lower than 100 percent and the fitted lobe is the one at zero.", "quantifier": "every frequency list, weights, options; default grid for spans up to 100000 square metres", "why_tests_cant": "ranges over all frequency coverages, integer sizes and weights", "anchors": ["RMtools_1D/calculate_RMSF.py:main", "RMtools_1D/calculate_RMSF.py:determine_RMSF_parameters", "RMutils/util_RM.py:get_rmsf_planes"]}
{"id": "C79", "title": "QU-fitting: from the data to the reported parameters", "statement": "run_qufit hands the sampler the likelihood of the fractional spectra: of the data themselves when there is no Stokes I or it is ignored, of the data divided by its level when Stokes I is flat, for every fit order and both kinds of Stokes I model. Data that the model explains exactly have their largest likelihood at its parameters. For every prior set in which no fixed parameter precedes an angle the run completes and reports for each parameter the fixed value, the median of its samples, or for an angle the circular value and its 16/84 percent spread; chi-squared, AIC, BIC belong to those values; the corner plot shows the same samples modulo 180 degrees, around the reported value. The model file of the working directory has precedence; input with a wrong number of columns ends the run silently.", "quantifier": "every data set, prior dictionary, model function, sampler result and fit order", "why_tests_cant": "ranges over all samplers' outputs, prior orders and spectra; the sampler itself is random", "anchors": ["RMtools_1D/do_QUfit_1D_mnest.py:run_qufit", "RMtools_1D/do_QUfit_1D_mnest.py:load_model", "RMtools_1D/do_QUfit_1D_mnest.py:lnlike_call", "RMutils/util_misc.py:create_frac_spectra"]}
{"id": "C80", "title": "RM-synthesis does not depend on the level of Stokes I", "statement": "Two rmsynth1d runs on the same Q, U and errors, with the same options about the grid, weights and spread function, whose Stokes I models are proportional, report the same depths, reference wavelength, spectrum, spread function, width, noise, source parameters, channel count and complexity; only the fractional polarisation changes, in that proportion. In particular: a flat Stokes I spectrum of any level, at any fit order and with either kind of model, is fitted exactly; the spectrum is then the RM-synthesis of Q and U as given; it is the one reported without Stokes I or with a five-column file; and a Stokes I table in other units gives the same spectrum. With a flat Stokes I and more channels than the order such a run ends.", "quantifier": "every pair of inputs and option sets as described, every level, order and kind of model", "why_tests_cant": "relates pairs of complete runs over all spectra, orders and weights", "anchors": ["RMtools_1D/do_RMsynth_1D.py:run_rmsynth", "RMutils/util_misc.py:create_frac_spectra", "RMutils/util_misc.py:fit_StokesI_model", "RMutils/mpfit.py:mpfit"]}
{"id": "C81", "title": "RM-synthesis in floating point", "statement": "do_rmsynth_planes in floating point: every array operation is rounded, numpy.sum adds in any order, the transform has its tolerance. For every valid input each value of the spectrum differs from the definition of RM-synthesis (at the returned reference wavelength) by at most a stated relative error times the weighted mean polarised intensity; the error grows with the phase 2|phi| max|l2-lam0|. In single precision with up to 1000 sequential additions and tolerance 1e-6 this is 62e-6 + 12e-8 times the phase. The reference wavelength differs from the weighted mean by a stated relative error. A Faraday-thin source keeps its amplitude and angle up to that error, and a peak that leads by more than the errors stays the peak. The spread function (get_rmsf_planes, one spectrum) has a bound of the same form. With exact arithmetic the results are those of the exact model.", "quantifier": "all inputs, weights, grids, roundings of a given relative error, summation orders and transforms of a given tolerance", "why_tests_cant": "ranges over all data, all summation orders and all implementations of the transform within its tolerance", "anchors": ["RMutils/util_RM.py:do_rmsynth_planes", "RMutils/util_RM.py:get_rmsf_planes"]}
{"id": "C82", "title": "FITS helpers: fewer axes, beam, cut-outs", "statement": "strip_fits_dims keeps the cards that do not belong to a removed axis, in their order; no axis keyword (NAXISn, CRVALn, CRPIXn, CDELTn, CTYPEn, CROTAn, CD1_n, CD2_n, CUNITn, PC00i00j) of a removed axis stays; NAXIS and WCSAXES are the number of axes asked for; it ends with an error exactly when more axes are asked for than the header and the checked dimensions have. The data kept are those at index 0 of the removed axes. get_beam_from_header takes the cards, else the last history line of the AIPS CLEAN form; get_beam_area is the area of a Gaussian of these widths in pixels. get_subfits returns, for a position whose cut-out reaches the image, exactly the pixels within ceil(radius/step) of the nearest pixel, with their values, CRPIX moved by the offset, lengths and data range of the cut-out, and all other cards. mkWCSDict gives limits that contain the corners of the image and the ends of the third axis, attained, and the step per pixel.", "quantifier": "all headers, arrays, positions, radii and coordinate conversions", "why_tests_cant": "ranges over all headers, array shapes and coordinate conversions", "anchors": ["RMutils/util_FITS.py:strip_fits_dims", "RMutils/util_FITS.py:get_beam_from_header", "RMutils/util_FITS.py:get_beam_area", "RMutils/util_FITS.py:get_subfits", "RMutils/util_FITS.py:mkWCSDict"]}
{"id": "C83", "title": "RM-CLEAN in floating point", "statement": "With relative errors u (sums), v (gain times sample), m (complex product), e (modulus) and h (Gaussian), which the operations of NumPy have for single and double precision with unbounded exponents: the loop ends without an error; at most maxIter components are subtracted; the sum of residual and response of the components differs from the dirty spectrum, and the clean spectrum from the beams of the components, by at most a stated multiple of k u (1+u)^(k-1), m and h times the sizes subtracted; it stops at the limit of iterations or with the residuals below the limit (up to the factor 1-e). For one source plus noise and sidelobes below rho, components are found at the channel of the source only, with stated errors of component and residual. In figures, for single precision, gain within 0.09 and 0.11, sidelobes below 0.97, noise below 1e-6 and limits of at least 1/2000 of the source: at most 81 iterations, component within 7e-6 and residual within 4e-6 of the exact values, relative to the source. Without rounding the result is that of the exact algorithm.", "quantifier": "all spectra, spread functions, grids, limits, windows, numbers of iterations and arithmetics with these errors", "why_tests_cant": "bounds over all spectra and roundings; a test sees one rounding pattern", "anchors": ["RMutils/util_RM.py:do_rmclean_hogbom", "RMutils/util_RM.py:RMcleaner._cleanloop"]}
{"id": "C84", "title": "Headers of the 3-D products", "statement": "The cubes written by RM-synthesis turn the frequency axis of the template into a Faraday depth axis (type, unit, length, step, reference pixel and value, the value being that of the sample at that pixel), carry the reference wavelength squared, are Stokes Q, Stokes U and neither, have the unit of the template per RMSF (none for the spread function), and no other card is lost, added or changed; the map of the width has two axes, the peak maps one plane. The files have the documented names, as three files or one. RM-CLEAN and the peak fit read back exactly the depths synthesised, also from the cubes of RM-CLEAN, which add one line of history and nothing but the cards of Stokes. Mask, coefficient, reference frequency and covariance maps and the model cube of the Stokes I fit have the stated axes, units and history. For each tool there is an exact condition for the headers to be made. Four expectations do not hold: CD terms of the frequency axis stay; with frequency on axis 1 or 2 the width map keeps the depth; the plane of a peak map has a coordinate below all depths; the iteration map is flat on axis 3 whichever is the depth.", "quantifier": "all template headers (any number of axes, frequency and Stokes on any axis), depth samples, options", "why_tests_cant": "tests use one header layout; the claims are over all layouts and all other cards", "anchors": ["RMtools_3D/do_RMsynth_3D.py:writefits", "RMtools_3D/do_RMsynth_3D.py:_setStokes", "RMtools_3D/do_RMclean_3D.py:writefits", "RMtools_3D/do_fitIcube.py:savefits_mask", "RMtools_3D/do_fitIcube.py:savefits_Coeffs", "RMtools_3D/do_fitIcube.py:savefits_model_I", "RMtools_3D/do_fitIcube.py:make_model_I", "RMtools_3D/rescale_I_model_3D.py:write_new_parameters"]}
{"id": "C85", "title": "Angles and numbers written out for people", "statement": "The axis labels of a position give degrees and minutes, or hours, minutes and seconds, in fields of two digits or more, minutes below 60, within a minute, or half a second, of the angle; NaN and infinities have no label. The converter from degrees writes the sign asked for and an angle within half of the last place of the seconds. Labels of logarithmic axes write the power of ten with the exponent cut towards zero, and there is an exact condition for a label to exist. Three expectations do not hold: angles between -1 and 0 degrees lose their sign; seconds of an hour label can read 60; the converter can write seconds as -0.00.", "quantifier": "all angles and numbers, all delimiters, sign options and numbers of places", "why_tests_cant": "the carries and the lost sign sit on thin sets of angles a test rarely hits; the error bounds are over all reals", "anchors": ["RMutils/util_plotFITS.py:label_format_dms", "RMutils/util_plotFITS.py:label_format_hms", "RMutils/util_plotFITS.py:label_format_deg", "RMutils/util_misc.py:deg2dms", "RMutils/util_plotTk.py:label_format_exp"]}
{"id": "C86", "title": "The numbers behind the figures", "statement": "The selection of values flags exactly those outside the limits, and NaN if asked. Lines of angles are cut exactly where neighbours are further apart than the threshold, and lose no sample. The drawn Gaussian has the height and full width at half maximum asked for. The outline of a histogram encloses exactly the area of its bars. The colour scale maps the limits to 0 and 1 and is increasing between them for every stretch, and its inverse returns the value. The statistics of an image are its mean, deviation, extremes, position of the maximum, median and median deviation over the numbers that count. The colour limits of an image are the stated multiples of its noise or those given. For each there is an exact condition for a result. Six expectations do not hold: NaN is not flagged without limits; a single pixel is counted though it should not be; images above 500 sigma get no square root stretch; a lower limit alone is ignored; a blank image raises; a sample fraction of one leaves out the first row and column.", "quantifier": "all arrays, limits, thresholds, stretches, exponents, midpoints and fractions", "why_tests_cant": "figures are not compared by tests; order, inverse and area are claims over all reals", "anchors": ["RMutils/util_plotTk.py:filter_range_indx", "RMutils/util_plotTk.py:unwrap_lines", "RMutils/util_plotTk.py:gauss", "RMutils/util_plotTk.py:mk_hist_poly", "RMutils/normalize.py:APLpyNormalize", "RMutils/util_misc.py:calc_stats", "RMutils/util_plotFITS.py:plot_fits_map"]}
{"id": "C87", "title": "Frequencies in text files", "statement": "The file made from the header of a cube has one line for each channel, in order, each a decimal numeral with 19 digits within half of the last. Any text table of numerals, with blanks, comments and empty lines, is read row by row, each number as the closest double; rows of different lengths raise. So frequencies written to a file and read back are the same doubles. The fitting tool accepts a table exactly if its number of rows (or of columns, for one row) is that of the channels and not one. A cube of doubles then gets the frequencies exactly, and a cube of singles the closest singles, within one part in 2^24. Working from the file or from the header is then the same for a cube of doubles. Six expectations do not hold: one channel is read as an array without axes; it is refused by the fitting tool; a cube of bytes raises; a cube of short integers gets infinite frequencies; a table of several columns passes the check; for a cube of singles the file and the header give different frequencies.", "quantifier": "all lists of doubles, all text tables, all shapes and BITPIX", "why_tests_cant": "exactness of the round trip is a claim over all 2^64 doubles, and the rounding depends on the type of the cube, not on the file", "anchors": ["RMtools_3D/make_freq_file.py:save_freq_file", "RMtools_3D/make_freq_file.py:get_freq_array", "RMtools_3D/do_RMsynth_3D.py:readFreqFile", "RMtools_3D/do_fitIcube.py:get_frequencies", "RMtools_3D/do_fitIcube.py:main"]}
{"id": "C88", "title": "What the spectra figures show", "statement": "The figure of p, q and u over lambda squared holds every channel with its errors, p as the modulus of q and u, an x range of the data with 5 % added, and a y range that holds every value with twice the middle error to spare; it can be made exactly if all arrays have one length, no error is negative and there is a channel with data and one with errors. The figure of the angle shows an orientation of every channel between -90 and 90 degrees, and its first-order error wherever the angle has one. Bands of 1000 sampled models hold at least 680 samples, with at least half on each side of the line. The four-part figure has axes in GHz and square metres, and the colours of its points are the frequencies. Depth spectra show both parts and the modulus, the fitted peak within a third of its width, and a line at the peak. The figures of the complexity measure show the shares below each value, rising partial sums of the likelihood ending at one, and the Gaussian of the stated width. Eleven expectations do not hold: the first figure without errors; negative errors; the browser of spectra for a negative q or u; the bar of p as its error (too long by the root of two for equal errors); bars within the y range; the line of the angle among samples around 90 degrees; a line for a peak at depth zero; the parts after cleaning when asked for; the normal curve around a mean far from zero; shares that reach one; the chi-squared curve of U over its own grid.", "quantifier": "all spectra with missing channels, all errors, all samples and depth grids", "why_tests_cant": "the figures are looked at, not compared; what they hold is a claim about all data, and the failing cases (a peak at exactly zero, angles about 90 degrees, one negative error) are rare in test data", "anchors": ["RMutils/util_plotTk.py:plot_I_vs_nu_ax", "RMutils/util_plotTk.py:plot_PQU_vs_nu_ax", "RMutils/util_plotTk.py:plot_pqu_vs_lamsq_ax", "RMutils/util_plotTk.py:plot_psi_vs_lamsq_ax", "RMutils/util_plotTk.py:plot_q_vs_u_ax", "RMutils/util_plotTk.py:plot_RMSF_ax", "RMutils/util_plotTk.py:plot_dirtyFDF_ax", "RMutils/util_plotTk.py:plot_cleanFDF_ax", "RMutils/util_plotTk.py:plot_Ipqu_spectra_fig", "RMutils/util_plotTk.py:plotPolsummary", "RMutils/util_plotTk.py:plot_rmsf_fdf_fig", "RMutils/util_plotTk.py:plot_cleanFDF_fig", "RMutils/util_plotTk.py:plot_complexity_fig", "RMutils/util_RM.py:norm_cdf"]}
{"id": "C89", "title": "The simulated cubes of the tests", "statement": "Simulated spectra of thin sources have the stated intensity, depth and angle in every channel, for one source or many. create_3D_data can be run exactly with at least one pixel and two channels. For images of at least 69 pixels on a side each voxel of the files is the sum of a point source, diffuse emission and noise: the source is a Gaussian, wrapped around the edges, brightest (2) exactly at the pixel named in the text file, its depth and angle those of the text; the diffuse emission is the same everywhere; the noise is the random draws blurred with the same Gaussian, with a deviation in Q of exactly the number in the text. Half the height of the Gaussian lies between 10 and 11 pixels from the centre. For any size the brightest pixel of the source has the stated intensity. The axes of the header are those of the files, and give the frequency of every channel if these are evenly spaced. RM-synthesis of a pixel is the spread function at both depths plus the spectrum of the noise. Two expectations do not hold: the deviation of the noise in U is the stated one; the header fits channels that are not evenly spaced.", "quantifier": "all lists of frequencies, image sizes and random draws; all weights and depths for the synthesis", "why_tests_cant": "these cubes are the input of the tests: no test looks at them", "anchors": ["RMutils/util_testing.py:Faraday_thin_complex_polarization", "RMutils/util_testing.py:create_3D_data"]}
{"id": "C90", "title": "Small helpers for text, lists, records and headers", "statement": "A configuration file gives each keyword the words of the last line that sets it, one word by itself and several as a list; comments, blank lines and lines without a value say nothing. Cleaned text keeps all words in order, with single spaces and line ends and none at the edges, and cleaning again changes nothing. Sorting names is a stable permutation in which no name comes before a smaller one, text by code point and numbers by value, so that names which differ in one number are ordered by it. A number that may be missing is read as its value or the default. The progress bar keeps its width. Records become Python values with the same numbers; a view of fields has the fields asked for, with types and offsets. Deleting an axis from a header removes exactly six keywords. Frequencies and wavelengths squared convert into each other. Seven expectations do not hold: comments after blanks are ignored (an equals sign in one raises); quoted text is one value; no blank lines after cleaning; decimals are sorted by value; bytes become their text; views keep the order asked for; no keyword of a deleted axis is left.", "quantifier": "all texts, lists of names, record types, headers, wavelengths", "why_tests_cant": "the tests do not touch these functions; the claims are over all texts and lists", "anchors": ["RMutils/util_misc.py:config_read", "RMutils/util_misc.py:cleanup_str_input", "RMutils/util_misc.py:sort_nicely", "RMutils/util_misc.py:xfloat", "RMutils/util_misc.py:progress", "RMutils/util_rec.py:pyify", "RMutils/util_rec.py:irecarray_to_py", "RMutils/util_rec.py:fields_view", "RMtools_3D/RMpeakfit_3D.py:delete_FITSheader_axis", "RMtools_1D/rmtools_bwdepol.py:l2_to_freq_array"]}
{"id": "C91", "title": "Command lines start what the help says", "statement": "For each of the eighteen console scripts: the declared options are the ones the help lists, each name once. Where every positional argument is one word, options (as words, glued, with an equals sign, several flags in one word) and words in any order are accepted; each option has the value typed last or its default, and the function the tool calls gets exactly these values under the documented parameters. With optional or grouped positional arguments the same holds for one block of words with options before and after. Unknown options, an option with too few words and a wrong number of words are never accepted. Six expectations do not hold: negative numbers such as -5. or -1e-3 can be typed as words; options of rmtools_fitIcube can be shortened; rmsynth1dFITS takes -c between files and coordinates (before Python 3.12.7); -s matters in rmtools_bwpredict; the examples in the help of rmtools_testdata1D work; a missing input file is reported as an error status.", "quantifier": "all lists of words on the command line, all file systems (which files exist)", "why_tests_cant": "the tests start the tools with a handful of fixed command lines; the claims are over all orders, forms and repetitions of options", "anchors": ["RMtools_1D/do_RMsynth_1D.py:main", "RMtools_1D/do_RMsynth_1D_fromFITS.py:main", "RMtools_1D/do_RMclean_1D.py:main", "RMtools_1D/do_QUfit_1D_mnest.py:main", "RMtools_1D/rmtools_bwdepol.py:main", "RMtools_1D/rmtools_bwpredict.py:main", "RMtools_1D/calculate_RMSF.py:main", "RMtools_1D/mk_test_ascii_data.py:main", "RMtools_3D/mk_test_cube_data.py:main", "RMtools_3D/do_RMsynth_3D.py:main", "RMtools_3D/do_RMclean_3D.py:main", "RMtools_3D/do_fitIcube.py:main", "RMtools_3D/RMpeakfit_3D.py:main", "RMtools_3D/rescale_I_model_3D.py:command_line", "RMtools_3D/extract_region.py:main", "RMtools_3D/create_chunks.py:main", "RMtools_3D/assemble_chunks.py:main", "RMtools_3D/make_freq_file.py:save_freq_file"]}
{"id": "C92", "title": "Fits with limits stay inside them and never get worse", "statement": "A fit of the least-squares fitter with limits, fixed parameters, step sizes and largest steps: whenever it ends, every parameter is between its limits, fixed parameters have their starting values, the residuals are not larger than at the start, the status is between 1 and 8 and the number of rounds is bounded by maxiter. Without an exception the answer is the first refusal that applies (no free parameter, a start outside its limits, limits without room, bad keywords, too few data), and otherwise a fit. With a largest step (no limits, nothing fixed) a parameter moves by at most that much per round. With only values and fixed flags the fit is the plain one. Derivatives use the step and the side asked for, never go beyond an upper limit with their first point, and are exact for linear residuals. Six expectations do not hold: a missing value is reported as a message; integer starting values are accepted with recent numpy; any true limit flag is respected; a largest step works beside a fixed parameter; derivatives respect the lower limits; a converged fit of linear residuals is the best point the limits allow.", "quantifier": "all residual functions, numbers of parameters and data, parameter descriptions, keywords and numbers of rounds", "why_tests_cant": "the tests never pass limits, and no finite set of functions and starts shows that every fit stays inside", "anchors": ["RMutils/mpfit.py:mpfit.__init__", "RMutils/mpfit.py:mpfit.parinfo", "RMutils/mpfit.py:mpfit.fdjac2"]}
