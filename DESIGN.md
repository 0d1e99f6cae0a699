# Formal model of RM-Tools in Rocq (Coq 8.16.1)

This file says what is modelled, how each property of `properties.jsonl` is
expressed and proved, what is not modelled, and what must be trusted.
`MANIFEST.json` maps every property to the exact theorem names.

## 1. Shape of the development

All files are in `rocq/theories/`. Per area `X`:

| file | content |
|------|---------|
| `X_Model.v` | Gallina transcription of the Python functions. No proofs. Every definition cites the file and lines in /repo it models. |
| `X_Spec.v` | the independent specification used in the statements (only when the statement needs vocabulary) |
| `X_Proofs.v` | lemmas |
| `X_Properties.v` | the theorems that count: each is `Theorem ... Proof. exact lemma. Qed.` followed by `Print Assumptions`, and by an `Example`/`Lemma` showing a concrete non-trivial case that meets the hypotheses |

Names ending in `_refuted` are theorems that exhibit a concrete input for which
the claim is false of the faithful model. They are findings about the Python
code (section 5). Names ending in `_partial` prove less than the property says.

## 2. Modelling decisions

* **Numbers.** Floating point numbers are modelled as exact reals (`R` of the
  standard library) or, where a computation is discrete, as `Z`/`nat`/`Q`.
  Rounding error is modelled in C81 (RM-synthesis) and C83 (RM-CLEAN) only and
  overflow nowhere. All other numeric theorems are therefore about the
  algorithm in exact arithmetic.
* **NaN and infinity.** Where the code branches on, or propagates, non-finite
  values, they are explicit values (`option R`, `None` = not finite, or a small
  inductive type). numpy multiplies complex data by `1j` and by weights using
  the full complex product, so an infinite Q or U becomes NaN before it is
  tested with `isnan`; one constructor for "not finite" is then faithful.
* **Complex numbers** are pairs of reals (`Cplx.v`), with `cis t = exp(i t)`.
* **Exceptions, `sys.exit`, unbound names** are values of a result type
  (`Ok x | Err e`). An early `return None, None` is its own constructor/option.
* **numpy operations** (slicing with negative or out-of-range bounds, `roll`,
  `argmax`, `moveaxis`, `squeeze`, `reshape`, `expand_dims`, `nan_to_num`) are
  written out as total functions on lists or on arrays given by shape and
  index function.
* **External numeric code** is an oracle: `finufft.nufft1d3` is taken to return
  the exact sum `f_k = sum_j c_j exp(+i s_k x_j)`; `bilby`,
  `astropy.io.fits`, `matplotlib` are not modelled; their results are
  universally quantified variables of the theorems. The fitter `mpfit` is
  such a variable in the theorems up to C67, which therefore hold for every
  fitter; C68 to C70 model its code (`Mp_Model.v`) and put it in its place
  (`MpI_Model.v`).

## 3. Per-property plan

| id | model | proof |
|----|-------|-------|
| C01 | `do_rmsynth_planes` for 2D arrays (channel x pixel), cells `option R` | sums over lists; linearity of the exact transform |
| C02 | same + RMSF definition | algebra of `cis`, triangle inequality on finite sums |
| C03 | same | masked sum = sum over filtered list |
| C04 | same | factor cancels in K and lam0 |
| C05 | same | column of the result depends on the column of the input and lam0 |
| C06 | same | phase factor leaves the sum |
| C07 | `get_rmsf_planes`, both paths | triangle inequality; path equality on antisymmetric grids |
| C08 | reversed `phiArr[::-1]` kept in the model | true for antisymmetric grids; `_refuted` otherwise |
| C09 | `nChanRM`, `linspace` | arithmetic on `R`/`Z`, rounding half to even |
| C10 | `extrap`, `phi2Arr` | arithmetic |
| C11 | header keywords CRPIX/CRVAL/CDELT as numbers, `fits_make_lin_axis` with truncation | arithmetic; `_refuted` for decreasing grids |
| C12-C16, C18 | `RMcleaner` per pixel as fuelled loop with the code's own bound `maxIter`; Python slicing and `roll` | loop invariants by induction on iterations |
| C17 | composition of `calculate_QU_model`, synthesis and CLEAN | C12 + exchange of finite sums |
| C19 | pool map as list map, parent/worker memory separated | equality of cubes; `_refuted` for the iteration map |
| C20 | mask construction with Python slices | invariant; `_refuted` at the low edge |
| C21, C22 | `create_chunks`, `assemble_chunks` over an abstract file system | list lemmas; crash points as prefix of actions; `_refuted` findings |
| C23 | `extract_region` | index arithmetic; `_refuted` for 2D and -1 |
| C24, C25 | arrays as shape + index function; moveaxis/squeeze/expand_dims | functional equality of arrays; `_refuted` for length-1 axes |
| C26 | header as ordered key/value list | membership lemmas |
| C27 | linear and log models | polynomial identities on `R` (`ring`, `ln`); `_refuted` for the log error formula |
| C28 | the order search with the fitter as an oracle | induction on orders |
| C29 | `create_frac_spectra` | case analysis |
| C30 | `calc_parabola_vertex` | `field` |
| C31 | `measure_FDF_parms` | list maximum lemmas, modulo arithmetic; composition with C02 |
| C32 | `calc_sigma_add`, `cdf_percentile`, linear interpolation | monotone lists |
| C33, C34 | spectra and `models_ns` | complex algebra, analysis for bounds |
| C35 | `lnlike_call`, criteria | sums; `_refuted` for normalisation and AICc |
| C36 | wrap functions with real floor modulo | modulo arithmetic |
| C37 | complex error function as the exact integral along the segment from 0 | fundamental theorem of calculus (Coquelicot) |
| C38 | adjoint transform | sums |
| C39 | control flow of `run_adjoint_rmsynth` | case analysis; `_refuted` findings |
| C40 | pixel selection | case analysis; `_refuted` |
| C41 | threshold selection | case analysis |
| C42 | strings | `_refuted` plus true part |
| C43, C44 | flattening and pixel maps | div/mod arithmetic; `_refuted` findings |
| C45 | per-pixel maximum | lists |
| C46 | `RMpeakfit_3D` from the files to the saved maps | loop invariant over a dictionary of maps; refinement to the 1-D measurement (C31) at each sky position; `_refuted` findings |
| C47 | `csv_read_to_list`, `split_repeat_lst`, `mk_test_ascii_data` | a grammar of catalogue texts (numerals, blanks, comments) read back by the parser; rows as sources; every row of every file; `_refuted` for the column meaning |
| C48 | median and MAD on lists of `option R` | permutation/order lemmas |
| C49 | noise formula | Cauchy-Schwarz |
| C50 | `Ifreq0` computation | `_refuted`, true part |
| C51 | `calc_mom2_FDF` | sums |
| C52-C55 | `run_adjoint_rmsynth`, `bwdepol_compute_predictions` | Cauchy-Schwarz, algebra; `_refuted` findings |
| C56-C62 | `do_RMsynth_1D.run_rmsynth` | inversion of a run into the specifications of its parts (C01, C02, C28, C31), then laws over the result; totality; `_refuted` findings |
| C63-C66 | `do_RMsynth_3D.run_rmsynth`, `writefits` | the array reshapes and the file axes turned into statements about voxels; total correctness (`files_ok`); thin-source and 1-D theorems over it; C66 refuted in three ways |
| C43, C44 | `do_fitIcube`, `rescale_I_model_3D` | the noise of a channel, the mask and the pixel loop stated over samples of the input (`fit_cube`); an exact condition for the run to end (`fit_cube_runs`, `rescale_runs`); the rescaled maps per pixel against `renormalize_StokesI_model`; both tools in a row (`fit_then_rescale`) |
| C67 | `mk_test_cube_data`, `mk_test_ascii_data`, then both synthesis tools | the two-dimensional Gaussian as a beam with its half widths; voxels as sums over the sources of the text; composition with C64 and C58 |
| C68 | `mpfit` (as RM-Tools calls it), `fit_spec_poly5`, `fit_StokesI_model` | loop invariants: chi squared of the current point never rises, the trust region shrinks below the tolerance after finitely many rejected steps; the run is a partial function with fuel and ends for a start no worse than zero parameters |
| C69 | `qrfac`, `qrsolv`, `lmpar`, `calc_covar` | induction over Householder and Givens steps, through the products J^T J and J^T f, which the steps keep; counterexample with three unknowns |
| C70 | `mpfit`, `fit_StokesI_model`, `create_frac_spectra` | for linear residuals forward differences are exact, so the first step is the least-squares solution and the second test ends the run |
| C71 | `run_rmclean` of `do_RMclean_1D` | one-pixel call of `do_rmclean_hogbom`, threshold in units of the noise, `measure_FDF_parms` of the clean spectrum, moments of the components |
| C72 | `run_rmsynth`, then `run_rmclean` | the saved products meet the needs of CLEAN (peak of the spread function in the middle of the doubled grid); single-source invariant of the loop; parabola through three symmetric samples |
| C73 | `clean_model.py` | the sum over components has one term; the saved coefficients are those of the model about the reference frequency |
| C74 | `do_rmsynth_planes_old`, `get_rmsf_planes_old` of `tests/nufft_test.py` | the loops over image rows re-indexed to one pixel index; equality of the two models, cell by cell |
| C75 | deprecated `do_rmsynth`, `get_RMSF`, `do_rmclean` of `util_RM` | sums over channels with a zero weight split off; step-by-step simulation of the two CLEAN loops (position on the grid found by value against by index) |
| C76 | `threeDnoise_*` of `util_RM` | numpy shapes, broadcasting and `repeat` modelled; sums over the voxels of a pixel |
| C77 | `detect_peak`, `fit_rmsf` of `util_RM`, with the model of `mpfit` (C68) | argmax and first index below a threshold; the symmetry and the unique unit peak of the RMSF (C07, C16); descent and termination of the fitter applied to the Gaussian residuals |
| C78 | `main`, `determine_RMSF_parameters` of `RMtools_1D/calculate_RMSF.py` | typing of text columns by genfromtxt, 64-bit wrap-around, arange lengths, composition with C16 and C77; figure and printing omitted |
| C79 | `run_qufit`, `load_model` of `RMtools_1D/do_QUfit_1D_mnest.py` | sampler as a function argument; loop over columns as an update fold; exact fit of flat Stokes I by the modelled mpfit (C70); reduction to C35 and C36; figures and printing omitted |
| C80 | `run_rmsynth` with the modelled `mpfit` | channels scaled by constants in every sum; exact fit of flat Stokes I (C79); interpolation commutes with a change of units |
| C81 | `do_rmsynth_planes`, `get_rmsf_planes` (1-D, no mask, no fit) with rounding | roundings, sum, exponential and transform as functions with an error bound; forward error analysis (inverse of a rounded sum, Lipschitz bound for the phases); instance: Flocq rounding to 24 and 53 digits with unbounded exponent (no overflow or underflow) |
| C82 | `strip_fits_dims`, `get_beam_from_header`, `get_beam_area`, `get_subfits`, `mkWCSDict` | headers as card lists (integers, numbers, texts); the conversions of wcslib as a function of the header; the regular expression as a parser, proved equal to its language; slices with Python's rules |
| C83 | `_cleanloop` with rounding | the complex operations as a record; NumPy's promotion rules for scalars and arrays (before version 2, setup.py:19); the trace of subtracted components; error growth by induction over the iterations; the exact model is the instance without rounding |
| C84 | headers and file names of `do_RMsynth_3D`, `do_RMclean_3D`, `do_fitIcube`, `rescale_I_model_3D` | headers as lists of cards; a statement "all cards but these are kept" proved through every assignment; the depth axis read back by the model of `fits_make_lin_axis`; exact conditions for the run |
| C85 | `label_format_dms`, `label_format_hms`, `label_format_deg`, `deg2dms`, `label_format_exp` | strings of digits with their value as a relation; the sexagesimal split shown to add up to the angle; rounding of the last field bounded; the plain `%g` format is an argument |
| C86 | `filter_range_indx`, `unwrap_lines`, `gauss`, `mk_hist_poly`, `APLpyNormalize`, `calc_stats`, limits of `plot_fits_map` | cuts shown to partition the samples; signed area of the outline by induction on the bins; one increasing function per stretch with its inverse; statistics against sums, counts and membership |
| C87 | `make_freq_file`, `readFreqFile`, `get_frequencies` and the choice in `main` of `do_fitIcube` | IEEE 754 rounding with overflow (Flocq, FLT); "%.18e" shown to be a numeral near the number; 19 digits shown to name a double; text tables against a grammar; wcslib's frequencies are an argument |
| C88 | the axes functions for spectra, depth spectra and complexity, `norm_cdf` | an axis is a list of what was drawn with its limits; errors by partial derivatives (`is_derive`); angles unique up to half turns; bands by counting in the sorted samples; matplotlib's refusal of negative errors and unequal lengths is modelled, colours and ticks are not |
| C89 | `Faraday_thin_complex_polarization`, `create_3D_data` | scipy's Gaussian filter is modelled (kernel cut at int(4 sigma + 0.5), wrapped); the periodic kernel is shown to be the beam on images of 69 pixels or more; the random draws are an argument; the text file is a list of pieces, numbers kept as numbers |
| C90 | `config_read`, `cleanup_str_input`, `sort_nicely`, `xfloat`, `progress`, `util_rec.py`, `delete_FITSheader_axis`, `l2_to_freq_array` | text is ASCII; regular expressions are written out as recursive functions; the natural order is defined by cutting a name into texts and numbers; numpy's order of the fields of a dict (by offset) and str() of plain bytes are modelled |
| C91 | argument declarations and `main` of the eighteen console scripts | argparse is modelled from its source (classification of words, abbreviations, bundles, blocks of positional arguments; both behaviours of empty optional arguments); a word `--` is left out; what `main` calls is a list of calls with their arguments, files are named and not opened; `exists` is an argument |
| C92 | `mpfit.__init__` with limits, `parinfo`, `fdjac2` | the checks at the start, pegged parameters, shortened and snapped steps, largest steps and two-sided derivatives, over R; exceptions and messages are values; fuel bounds the rounds and every theorem is for every fuel, so termination with limits is not claimed; derivatives: size and side of the steps, exact for linear residuals |

## 4. Trusted base

* Coq's kernel, version 8.16.1 (`vm_compute` included).
* The axioms printed by `Print Assumptions`. Only those of the standard
  library's real numbers and classical logic may appear:
  `ClassicalDedekindReals.sig_forall_dec`, `ClassicalDedekindReals.sig_not_dec`,
  `FunctionalExtensionality.functional_extensionality_dep`,
  `Classical_Prop.classic` (and `Description.constructive_definite_description`
  style axioms if a stdlib lemma uses them).
* The transcription from Python to Gallina, done by hand.
* The oracles of section 2.
* Libraries: Coquelicot (complex numbers, integrals, limits) and Flocq
  (rounding, C81, C83 and C87). Neither adds an axiom.
* Reals stand for floats, except in C81 and C83, where every array
  operation is rounded, and in C87, where reading and writing numbers is.
  Overflow and underflow are modelled in C87 only.

### Coverage

| file | modelled | not modelled |
|---|---|---|
| `RMutils/util_RM.py` | everything else, `threeDnoise_*` included | `norm_cdf`, `calc_normal_tests`, `plot_complexity`; progress bars |
| `RMutils/util_misc.py` | header edits, `csv_read_to_list`, moments, vertex, Stokes I fitting, rescaling and fractional spectra, interpolation, `MAD`, medians, `extrap`, spectra of simulated sources, `deg2dms`, `calc_stats`, `config_read`, `cleanup_str_input`, `sort_nicely`, `xfloat`, `progress` | `nanstd`, `norm_cdf` |
| `RMutils/util_FITS.py` | everything | wcslib (oracle) |
| `RMutils/mpfit.py` | the fit, its checks, limits and bounds on steps, `parinfo`, `fdjac2`, `qrfac`, `qrsolv`, `lmpar`, `calc_covar` | `defiter` printing, `tie`, `damp`, `autoderivative=0`, `rescale` and `diag`, NaN checks, a function that stops the fit |
| `RMutils/util_plotTk.py`, `util_plotFITS.py`, `normalize.py` | axis labels, selections, line cuts, histogram outlines, colour scale and limits, the data and limits of the figures of spectra, depth spectra and complexity | images, windows, colours, ticks |
| `RMutils/util_rec.py` | everything | memory layout of views |
| `RMutils/util_testing.py` | thin sources, `create_3D_data` | random numbers, `create_1D_data` (copies a file) |
| `RMtools_1D/do_RMsynth_1D.py`, `do_RMsynth_1D_fromFITS.py` | run, reading, saving, argument parsing | figures, printing |
| `RMtools_1D/do_RMclean_1D.py`, `clean_model.py` | run, reading, saving, the model of the components | `plot_clean_spec`, printing |
| `RMtools_1D/do_QUfit_1D_mnest.py`, `models_ns/*` | run, likelihood, report, all models and converters | the sampler, figures, `init_mnest`, `merge_two_dicts` |
| `RMtools_1D/calculate_RMSF.py` | report and its frequencies | figures |
| `RMtools_1D/rmtools_bwdepol.py`, `rmtools_bwpredict.py` | all numerical functions and the run | figures |
| `RMtools_1D/mk_test_ascii_data.py`, `RMtools_3D/mk_test_cube_data.py` | catalogue, spectra, cubes | random numbers, beam convolution by the oracle |
| `RMtools_3D/do_RMsynth_3D.py`, `do_RMclean_3D.py` | run, reading (frequency file included), writing, headers, file names, peak maps | memory handling |
| `RMtools_3D/do_fitIcube.py`, `rescale_I_model_3D.py` | frequencies, noise, fits, masks, model cubes, rescaling, headers | file names of the outputs |
| `RMtools_3D/RMpeakfit_3D.py`, `extract_region.py`, `create_chunks.py`, `assemble_chunks.py` | run, header edits, argument parsing | - |
| `RMtools_3D/make_freq_file.py` | frequencies, file | wcslib |
| `tests/nufft_test.py` | the direct-sum functions | - |
| other `tests/` | nothing | - |

## 5. Findings

Each is a machine-checked counterexample (or a general negative fact) about the
faithful model.

| id | theorem | what happens in the code |
|----|---------|--------------------------|
| F1 | `C08_rmsynth_asymmetric_grid_refuted` | `do_rmsynth_planes` evaluates the transform at `-phi[::-1]`; for a grid that is not symmetric about zero the spectrum is returned at the wrong depths. The tools only build symmetric grids. |
| F2 | `C19_pool_iterations_refuted`, `C19_pool_iterations_zero` | with a worker pool `do_rmclean_hogbom` returns an iteration map of zeros: the workers count in their own copy of the array. |
| F3 | `C20_window_edge_refuted` | the windowed phase of RM-CLEAN computes a negative slice start for components closer than half a width to the lower end of the grid, so that the window around them is empty (or wraps to the upper end). |
| F4 | `C41_default_window_refuted` | the library default `window=0` is not "no window": every cleaned pixel runs to `maxIter`. |
| F5 | `C27_log_error_5_refuted` | `renormalize_StokesI_model`, log model: the variance of the fifth parameter uses `16 lnx^6 cov[0,5]` where propagation needs `cov[1,1]`. |
| F6 | `C27_log_error_6_refuted` | `renormalize_StokesI_model`, log model: the variance of the amplitude lacks `ln(10)^2` on all terms that do not involve the amplitude. |
| F7 | `C27_twice_errors_refuted` | `renormalize_StokesI_model` keeps the old covariance matrix in its result, so that renormalising the result again quotes wrong errors. |
| F8 | `C28_fit_dof_refuted` | `fit_StokesI_model` counts flagged channels in `dof`, hence in the reduced chi-squared. |
| F9 | `C29_frac_errors_refuted` | `create_frac_spectra` divides the error by the signed model: negative errors for a negative model; and a NaN value keeps a finite error. |
| F10 | `C11_depth_axis_decreasing_refuted` | `fits_make_lin_axis` divides a magnitude by a signed CDELT: a decreasing depth axis (negative dPhi, which rmsynth3d accepts and writes) makes rmclean3d and peakfitcube fail, or read an empty axis. |
| F11 | `C49_noise_flagged_refuted` | `run_rmsynth` (1D) sums the weights of flagged channels into the denominator of the theoretical noise; with uniform weights the noise is understated by the flagged fraction. |
| F12 | `C50_Ifreq0_interp_refuted` | `run_rmsynth` (3D) always takes the plain mean of two Stokes I planes where it means to interpolate to the reference frequency. |
| F13 | `C50_Ifreq0_descending_refuted` | for a descending frequency axis the 3D code pairs the nearest plane with the neighbour on the wrong side: wrong value, wrap to the other end of the band, or IndexError. |
| F14 | `C21_single_chunk_refuted` | `create_chunks` fails with an unbound loop variable when the image fits in a single chunk. |
| F15 | `C21_marker_prefix_refuted` | `assemble_chunks` looks for the first `.C<digits>.` in the name: a prefix that contains such a marker makes its own chunks unreadable. |
| F16 | `C21_sibling_product_refuted` | `assemble_chunks` globs `prefix.C*.fits`, which also matches products derived from chunks (`prefix.C0.FDF_tot_dirty.fits`). The count then differs, and the output named by default (the original cube) has been overwritten with zeros if overwriting was allowed. |
| F17 | `C22_missing_chunk_refuted` | `assemble_chunks` creates (or overwrites) the output as a blank image before it counts the chunks: a missing chunk gives an error but leaves an all-zero image. |
| F18 | `C23_minus_one_refuted` | `extract_region` checks that the limits are ordered before it interprets -1, so that the documented -1 for the image limit is refused whenever the lower limit is above -1. |
| F19 | `C23_two_dimensions_refuted` | `extract_region` loses the last row and the last column of every box of a 2-D image. |
| F20 | `C23_z_minus_one_refuted` | -1 as third-axis limit selects the last plane but one. |
| F21 | `C23_outside_refuted` | a box with negative limits outside the image returns pixels (negative slice bounds wrap). |
| F22 | `C24_write_needs_ctype_refuted` | the reader tolerates axes without CTYPE, `writefits` then raises KeyError after the whole computation. |
| F23 | `C25_one_wide_refuted` | rmclean3d squeezes all axes of length one and restores them in front: an image one pixel wide (or high) comes back with axes that contradict its header. |
| F24 | `C26_cd_left_refuted`, `C26_header_2d_defined` | `remove_header_third_fourth_axis` leaves `CD3_3`, `CROTA3` and the like; a header without any celestial keyword raises ValueError. |
| F25 | `C42_marker_directory_refuted` | companion names are made by replacing `_tot`, `_real`, `_im` in the whole path: the directory `my_images/` becomes `my_realages/`. |
| F26 | `C45_partial_blank_refuted` | peak maps of a partially blank pixel: NaN for the maximum, but a finite depth (that of the first blank sample). |
| F27 | `C31_convex_minimum`, `C31_edge_peak_refuted` | `measure_FDF_parms`: when the brightest non-edge channel is next to a brighter edge, the parabola can be convex and the reported "peak" is its minimum, below the channel's own amplitude. |
| F28 | `C31_outside_snr_refuted` | `measure_FDF_parms`: when the vertex falls outside the grid "everything should get NaN'd out", but `snrPIfit` keeps its finite value. |
| F29 | `C30_zero_middle_refuted` | `calc_parabola_vertex` divides by the middle ordinate and returns NaN when it is zero although the parabola exists. |
| F30 | `C33_burn_refuted` | `create_pqu_spectra_burn` (util_misc.py:1200) uses `exp(-2 sigma lambda^4)`; Burn's law, and QU-fitting model 2, have `sigma^2`. They agree only for sigma 0 and 1. |
| F31 | `C33_slab_list_refuted` | `create_pqu_spectra_diff` converts its other arguments but calls `psi0Arr_deg.reshape` on the raw argument: a list raises AttributeError. |
| F32 | `C34_nan_refuted` | models 5, 6, 7 and 12 divide by the slab's extent. At extent 0 (inside the prior) they are NaN, `nansum` drops every residual, and the likelihood is the largest of all. |
| F33 | `C35_value_refuted` | the log-likelihood uses `sqrt(dq^2+du^2)` in both normalisations; it is at least N ln 2 below the Gaussian value (evidences of different data sets are not comparable; differences between models are). |
| F34 | `C35_criteria_partial` | AICc lacks `2 k` (it is the correction plus `-2 lnL` only); the degrees of freedom are `n - k - 1` instead of `n - k`. |
| F35 | `C36_split_refuted` | an even number of angle samples split evenly across 0/180 has plain median 90, is not rotated, and 90 is reported for an angle of 0. |
| F36 | `C36_wrap_refuted` | `wrap_chains` tests `wraps[i] != 0`; the boundary flags of the sampler are None or "periodic", so every column would be wrapped (the function is not called at present). |
| F37 | `C39_six_columns_refuted`, `C39_eight_columns_refuted` | `rmtools_bwdepol` documents files with channel widths, but six columns always raise (the branch assigns `width_Hz`, the code reads `widths_Hz`) and eight columns raise for two or more channels (`widths_Hz == None` on an array). |
| F38 | `C39_verbose_refuted` | `rmtools_bwdepol -v` always raises KeyError: the report reads `dFDFth`, which the tool never computes. |
| F39 | `C39_nan_error_refuted` | a NaN in any Q or U error column (the usual way to flag a channel) makes the theoretical noise NaN at all depths, and `nanargmax` raises. |
| F40 | `C39_rmsf_depths_refuted` | the saved spread function pairs sample k, computed at depth `phi[k]`, with depth `phi2[k]` of the doubled grid: every row is shifted by half the grid. `fit_rmsf` gets the same two arrays, of different lengths. |
| F41 | `C53_refuted` | `rmtools_bwdepol` evaluates the Stokes I model at the reference frequency as a polynomial in GHz although it was fitted as a power law in nu/nu0: a positive model can give a negative Stokes I. |
| F42 | `C55_refuted` | `rmtools_bwdepol` puts the parabola through normalised amplitudes around the signal-to-noise peak with no range check: the reported depth can be far outside the grid and the amplitude negative. |
| F43 | `C57_rmsf_refuted` | `run_rmsynth` masks the spread function with `~isfinite(qArr)` only: a channel with Q but no U is in the RMSF, in `N_channels` and in the band edges, but not in the spectrum. |
| F44 | `C59_table_super_refuted` | a Stokes I table with super-resolution always raises: the reference frequency stays at the default 1 Hz, outside the table, and `interp1d` refuses. |
| F45 | `C40_blank_refuted` | the blank-pixel test of `do_RMsynth_1D_fromFITS` tests Q twice: a pixel with Q = 0 and signal in U is refused. |
| F46 | `C40_pixel_zero_refuted` | pixel coordinate 0 (or a negative one) is not refused: it wraps to the last columns. |
| F47 | `C40_fraction_refuted` | pixel coordinates are cut off with `int`, sky coordinates are rounded: 1.9 is pixel 1. |
| F48 | `C46_unknown_name_refuted` | `pixelwise_peak_fitting`: one product name that the measurement does not have (for example `dQU`, which `save_maps` has a unit for) makes every pixel of every map NaN, without an error. |
| F49 | `C46_column_refuted`, `C46_column_noise_refuted` | `rmtools_peakfitcube` on an image of one column: the maps have one row; the Stokes I cube keeps its column, so all pixels but the first are NaN, or the run raises if noise is given. |
| F50 | `C46_single_pixel_refuted` | `rmtools_peakfitcube` on a single pixel raises (only the two-dimensional case gets its axis back). |
| F51 | `C46_zero_reference_refuted` | with LAMSQ0 = 0 (super-resolution) the reference frequency is infinite, all distances tie and Stokes I is taken half-way between the first two planes; rmsynth3d used the plane at the mean frequency, so `fracPol` is off by their ratio. |
| F52 | `C46_negative_noise_refuted` | the noise map is `I * sigma` without a magnitude: negative where Stokes I is negative (the 1-D tool takes the magnitude). |
| F53 | `C46_save_here_refuted` | `save_maps` with a prefix without a directory: `os.path.dirname` is empty, does not exist, and `os.mkdir("")` raises, after the whole fit. |
| F54 | `C66_one_column_refuted` | `rmtools_synth3d -i` on a three-axis image whose first sky axis has one pixel: the Stokes I map keeps its column while the spectra are `(nphi, ny, 1)`, so the scaling raises a broadcast error; if `ny` happens to be the number of depths it is applied along the depth axis, depth j scaled by Stokes I of pixel j. |
| F55 | `C66_few_axes_refuted` | `rmtools_synth3d -i` on an image that keeps fewer than two sky axes raises (the Stokes I interpolation indexes three axes). |
| F56 | `C66_spread_refuted` | the spread function masks `~isfinite(dataQ)` only: a channel blank in U or Stokes I is left out of the spectrum but is in the spread function, so CLEAN works with the wrong one. |
| F57 | `C29_no_channel_refuted` | A Stokes I spectrum with no usable channel is not caught as a failed fit. The model is NaN instead of one, so every fraction is NaN, and `run_rmsynth` ends in "min of an empty array". |
| F58 | `C43_frequency_refuted` | `rescale_I_model_3D -l` divides 2997924538/10 by the root of LAMSQ0: the new reference frequency is about 4 Hz per 300 MHz off. |
| F59 | `C43_gap_refuted` | `rescale_I_model_3D` counts the planes that are not zero everywhere and writes that many from order zero up: with a plane of zeros below the highest order, the highest order is lost and the model changes. |
| F60 | `C44_hole_refuted` | `do_fitIcube` without a mask: a pixel without data has zero in all error maps and in the coefficients above order zero, not NaN. |
| F61 | `C44_flat_refuted` | `do_fitIcube`: the noise of a channel is taken from the samples below its median plus three sigma. A channel of one value has none, so a simulated cube without noise gives no model and no message. |
| F62 | `C44_label_refuted` | `do_fitIcube` on a cube whose spectral axis is the fourth writes the channels on an axis named after the third (STOKES). |
| F63 | `C44_first_axis_refuted` | `do_fitIcube` on a cube whose spectral axis is the first and whose axes are of one length writes the model with the channels on the third axis under the header of the input: channel and declination are swapped. |
| F64 | `C47_help_refuted` | The help of `mk_test_ascii_data` and `mk_test_cube_data` lists the angle in column 8 and the fractional polarisation in column 9, for both model types. The code takes column 8 for the fraction and column 9 for the angle, as the comments in the shipped catalogues do. A catalogue written from the help gives sources with a fraction of, say, 80. |
| F65 | `C47_dispersion_refuted` | The column "Faraday dispersion (radians m^-2)" is not squared: the source is depolarised by exp(-2 s lambda^4), as if the column held the variance. |
| F66 | `C47_ignored`, `C47_files` | An incomplete last component of a row is dropped without a message, and rows of an unknown type are skipped; the number of an output file is the place of the row, so the numbers then have gaps. |
| F67 | `C47_flags_refuted`, `C47_flags` | A flag string that does not parse means no flags: the warning at mk_test_ascii_data.py:226 and mk_test_cube_data.py is a string that is not printed. A last number without a partner is dropped. The help example of the ASCII tool passes the flags with -f, which is the frequency range. |
| F68 | `C47_shape_refuted` | The cube tool reads major axis, minor axis and angle of a source and ignores them; the shipped catalogue says they are the parameters of the injected Gaussians. Every source has the shape of the beam. |
| F69 | `C67_empty_refuted` | A catalogue without a source gives cubes whose flagged channels hold noise instead of NaN. |
| F70 | `C67_shared_refuted` | The Q and U images are made with `hduI.copy()`. If that shares the pixels (astropy's source passes `self.data` on; its documentation says the data are copied), the three cubes are the same array holding I + Q + U. Whether it does is outside the code and is an argument of the model. |
| F71 | `C69_damped_refuted` | `mpfit.qrsolv` (2029-2030) leaves the loop over the rotations at the first zero entry (`break`; MINPACK's `qrsolv.f` goes on to the next one). With three unknowns the damped equations are then left unsolved although they have a solution. RM-Tools fits up to six unknowns. |
| F72 | `C68_reported_refuted` | The chi squared reported is `max(fnorm, fnorm1)^2` (1433-1435), where `fnorm1` is that of the last step tried. If the run ends right after a rejected step, it is not the chi squared of the parameters returned: 25 instead of 1 in the example. The Stokes I fit takes its AIC and reduced chi squared from it. |
| F73 | `C68_few_channels` | With no more channels than the order asked for, the fitter returns the starting values with chi squared -1 and no covariance. The Stokes I model is then the plain mean, and the change of the reference frequency that follows in `do_RMsynth_1D` fails on the missing covariance. |
| F74 | `C71_zero_noise_refuted` | `rmclean1d` divides by the theoretical noise (194-219). If all errors of Q and U are zero, or all NaN, that is the Python float 0.0: the tool raises ZeroDivisionError after cleaning and saves nothing. |
| F75 | `C71_no_noise_refuted` | with a NaN theoretical noise, a threshold in units of the noise (the default, -3) is NaN: nothing is cleaned, the dirty spectrum is returned as the clean one and no message says so. (`run_rmsynth` itself reports zero rather than NaN, see F74; NaN can come from a caller or from a file.) |
| F76 | `C73_command_refuted` | every positional argument of `clean_model.py` has `nargs=1`, so file names arrive as lists and `open` (or `loadtxt`, which takes the list for lines of text) fails: the command never works. |
| F77 | `C73_thin_source_partial`, `C73_thin_source_refuted` | `calculate_QU_model` multiplies the components, which `rmsynth1d` has already put into flux units, by the Stokes I model: Q and U come out too large by the Stokes I flux at the reference frequency. (It also takes any saved coefficients for those of a power law.) |
| F78 | `C75_isolated_flag_refuted` | the deprecated `do_rmsynth` divides by the weight of all channels that are good somewhere in the image, so a voxel flagged in one pixel makes that pixel's spectrum too small by its share of the weight. |
| F79 | `C76_low_weights_refuted` | `threeDnoise_do_rmsynth_planes` pads weights of one or two axes with `np.repeat(weightArr, dataQ.shape)` (2102), which repeats elements and not axes: it always raises, also for 1-D and 2-D data without weights, all documented inputs. |
| F80 | `C76_lam0_number_refuted` | the same routine indexes the argument `lam0Sq_m2` with `[np.newaxis, :, :]`, so a single number, which the other routines take, raises. |
| F81 | `C76_rmsf_lam0_refuted` | `threeDnoise_get_rmsf_planes` overwrites its argument `lam0Sq_m2` ("force a reference lambda^2 value"): it has no effect. |
| F82 | `C76_real_fit_refuted` | with `fitRMSFreal` and weights that are the same in every pixel, the prototype fits the cube of ones it was initialised with (2279), not the RMSF. |
| F83 | `C77_near_start_refuted`, `C77_near_start_fails_refuted` | `detect_peak` masks `iL:iR` with `iL = iPk - ishift + 1` unclipped; for a peak nearer to the first sample than to its fall `iL` is negative and counts from the end, so the mask misses the peak: it is empty (no fit, status -1) or, if the fall is in the second half, holds samples from the end only. This happens on grids that do not hold the lobe at zero on both sides, and when an alias at the lower end of the grid is as high as the peak. |
| F84 | `C78_integer_overflow_refuted` | `determine_RMSF_parameters` squares the frequencies (170); `genfromtxt(dtype=None)` types a column without decimal points as int64, whose square wraps around above 3037000499 Hz. Every integer frequency above that gets a wrong squared wavelength, a negative one up to 4294967295 Hz. |
| F85 | `C78_mixed_columns_refuted` | integer frequencies beside weights with decimal points are read as records with one axis; they are taken for the frequencies and the first arithmetic raises. |
| F86 | `C78_one_row_refuted` | a file with one channel and its weight is read as one axis with two entries: two channels, the second one at a frequency equal to the weight. |
| F87 | `C79_fixed_refuted`, `C79_fixed_raises_refuted` | `run_qufit` (418-420, 544-547) rotates `result.samples[:, i]` with `i` counted over all parameters, but the samples have columns for the varied ones only. With a fixed (DeltaFunction) parameter before an angle, which the code supports (`fixedMsk`), the neighbouring parameter is shifted by 90 and the angle is reported 90 degrees off; or, with too few columns, the run ends in an IndexError after the sampling. |
| F88 | `C79_blank_counted_refuted` | `nData = 2 len(lamSq)` (454) counts blank channels, which the likelihood ignores: degrees of freedom, reduced chi-squared, AICc and BIC are wrong for flagged data. |
| F89 | `C81_tolerance_refuted` | `do_rmsynth_planes` (200-209) casts the wavelengths (relative to the reference) and the depths to the type of the data before the transform is called with `eps=1e-6`. In single precision the phase 2 phi (l2 - lam0) is then off by 1.2e-7 of itself, so at large depths the error of the spectrum is above the tolerance: 60 times for a phase of 2048 rad even with an exact transform. Subtracting and transforming in double precision would avoid it. |
| F90 | `C82_strip_terms_refuted` | `strip_fits_dims` (188-238) looks for rotation terms as `PC00i00j`, `CD1_n` and `CD2_n`. The standard's `PCi_j`, and `CD3_j`, of removed axes stay, so the header with two axes still has terms of the third. |
| F91 | `C82_strip_too_few_refuted` | The check for too few dimensions (215-218) is made after `naxis` was raised to `forceCheckDims` (209-213 does so whether or not there are PC terms). With the value 5 used by `mkWCSDict` and `get_subfits` it never fires: a header with one axis gets NAXIS = 2 without NAXIS2. |
| F92 | `C82_channels_refuted`, `C82_zero_limit_refuted` | `get_subfits` with a range of channels always raises: `world2chan` (361) is not defined anywhere, and without a third axis `w["header3D"]` is missing. If one of the limits is zero the range is ignored (360). |
| F93 | `C82_outside_refuted` | For a position left of or below the image by more than the radius plus one pixel, `xMax_pix + 1` (352-357, 375) is negative and counts from the end of the axis: most of the image comes back instead of nothing. |
| F94 | `C82_blank_refuted` | DATAMIN and DATAMAX (410) come before the lengths (412) in one `try`: a cut-out that is empty or all NaN keeps NAXIS1 and NAXIS2 of the whole image. |
| F95 | `C82_turn_refuted`, `C82_steps` | The step along x is the plain difference of two longitudes (145). If the longitude starts over at 360 between the reference pixel and its neighbour it is about 360 degrees, and `get_subfits` cuts one pixel around the position. Images of two axes step back (142), cubes step forward (136), so the signs of `xdelt` and `ydelt` differ; `pixscale` averages `xdelt` with itself (147). |
| F96 | `C84_fit_maps` | `savefits_mask` (do_fitIcube.py:332-350) writes DATAMAX = 1 and DATAMIN = 0 into the header object it shares: the coefficient, reference frequency and covariance maps claim these limits too. |
| F97 | `C84_fit_cov` | covariance.fits has NAXIS = 4 and cards for axes 3 and 4 (630-643), but WCSAXES = 2 stays from the flattened header. |
| F98 | `C84_cd_refuted` | RM-synthesis replaces CDELT of the frequency axis (do_RMsynth_3D.py:409-418) but not CDi_j: a template with a CD matrix gives cubes whose depth step is that of the frequency for readers that prefer CD. |
| F99 | `C84_fwhm_refuted` | The header of the width map drops axes 3 and 4 whichever axis is the frequency: with frequency first it keeps a depth axis and drops an axis of the sky. |
| F100 | `C84_peak_pixel_refuted` | The peak maps get CRVAL = phi[0] (596) but keep CRPIX of the cube, so the only plane has a coordinate half the depth range below the first depth. |
| F101 | `C84_iter_axis_refuted` | CLEAN_nIter.fits is flattened on axis 3 (do_RMclean_3D.py:308-315) whichever axis is the depth. |
| F102 | `C85_sign_refuted` | `label_format_dms` and `label_format_hms` (util_plotFITS.py) print the sign as a factor of the whole degrees: between -1 and 0 degrees (hours) the label has none. |
| F103 | `C85_sixty_refuted` | `label_format_hms` carries at 59.995 seconds but prints no decimals: seconds from 59.5 to 59.995 read "60s". |
| F104 | `C85_minus_zero_refuted` | `deg2dms` (util_misc.py:314-352) carries by subtracting 60 from unrounded seconds: the field reads "-0.00". With fewer than two places it can also read 60. |
| F105 | `C85_exp` | `label_format_exp` (util_plotTk.py:2232-2250) cuts the exponent towards zero: 2e-5 is written as 10^-4, but 2e5 as 10^5. |
| F106 | `C86_filter_nan_refuted` | `filter_range_indx` (util_plotTk.py:125-143) with filterNans and no limits flags no NaN. |
| F107 | `C86_stats_one_refuted` | `calc_stats` (util_misc.py:1102) compares npix with 0 instead of setting it: one valid pixel is reported as npix = 1 without success. |
| F108 | `C86_sqrt_refuted` | The third case of the automatic stretch (util_plotFITS.py, `elif sigma > 500`) follows `elif sigma > 20` and is never reached. |
| F109 | `C86_zmin_refuted` | The lower limit is set under `if zMax is not None`: zMin alone is ignored, and zMax alone unsets the lower limit. |
| F110 | `C86_blank_refuted` | An image with fewer than two numbers, or with no deviation from its median, has madfm = 0; the division raises ZeroDivisionError. |
| F111 | `C86_box_refuted` | The sample for the limits starts one pixel too high: the first row and column are never in it. |
| F112 | `C87_round_trip_one_refuted`, `C87_one_refuted` | numpy.loadtxt drops axes of length one: the frequency file of a one-channel cube is read as an array without axes, and len() of it raises in `get_frequencies` (do_fitIcube.py:254). |
| F113 | `C87_bytes_refuted` | `get_frequencies` (do_fitIcube.py:245-246) takes the type of the frequencies from BITPIX: "float8" is no type, so a cube of bytes raises TypeError. |
| F114 | `C87_short_refuted` | For BITPIX = 16 the type is float16, in which every frequency above 65520 Hz is infinite. |
| F115 | `C87_columns_refuted` | The check compares the first axis only: a table of nChan rows and several columns passes and goes on as a 2-D array. |
| F116 | `C87_same_single_refuted` | For BITPIX = -32 the frequencies of the file are rounded to singles (steps of 128 Hz at 1.4 GHz); those of the header are not. The same cube is fitted at other frequencies with and without the file. |
| F117 | `C88_no_errors_refuted` | `plot_pqu_vs_lamsq_ax` (util_plotTk.py:434-594) has errors None by default, but takes their median for the y range: without errors it always raises. |
| F118 | `C88_negative_refuted`, `C88_browser_refuted` | matplotlib refuses negative errors. `run_qufit` passes dq and du as they are (do_QUfit_1D_mnest.py:330-341), so with the negative models of F9 it stops at its first figure; do_RMsynth_1D.py takes their absolute values. `plotPolsummary` and `plotPolresidual` (util_plotTk.py:1721-1724, 1773-1776) compute dq = q sqrt(...), which is negative wherever q is. |
| F119 | `C88_p_bar_refuted`, `C88_p_error_equal` | The bars of p are sqrt(dq^2 + du^2) (util_plotTk.py:470); the error of p is sqrt((q dq)^2 + (u du)^2) / p. For equal errors the bars are too long by the root of two. |
| F120 | `C88_limits_refuted` | The y range adds twice the median error, so long bars are cut off. |
| F121 | `C88_psi_median_refuted` | The line and band of the sampled angle (util_plotTk.py:661-682) are percentiles of numbers between -90 and 90: samples at 67.5 and -67.5 degrees, 45 degrees apart, have their line at 0. |
| F122 | `C88_peak_line_refuted` | `if vLine:` (util_plotTk.py:916): a peak at depth 0 has no line. |
| F123 | `C88_complex_refuted`, `C88_clean` | The figure after cleaning ignores showComplex, and labels the residual "Dirty" (util_plotTk.py:1982-2027). |
| F124 | `C88_normal_refuted` | `norm_cdf` (util_RM.py:1114-1125) spans -6 to 6 sigma about zero, not about the mean. |
| F125 | `C88_ecdf_refuted` | The sample distribution is i/n with i from 0 (util_plotTk.py:2334-2335): the share below, which never reaches one; the normal curve beside it is the share not above. |
| F126 | `C88_chi_refuted` | The chi-squared curve of U is drawn over the sigma grid of Q (util_plotTk.py:2353-2355). |
| F127 | `C89_u_noise_refuted` | The noise of both cubes is divided by the deviation of Q (util_testing.py:111-115): the text's "Actual error per channel" is that of Q; in U it is only close. |
| F128 | `C89_axis_refuted` | The header of the simulated cubes takes the first two frequencies (util_testing.py:139-140). For channels that are not evenly spaced it does not agree with the frequency file. |
| F129 | `C90_config_comment_refuted`, `C90_config_comment` | `config_read` (util_misc.py:211-214) looks for the equals sign before it cuts the comment: an indented comment with an equals sign raises ValueError. |
| F130 | `C90_config_quotes_refuted`, `C90_config_blank_comma` | `config_read` removes quotes before it splits (util_misc.py:222-227): quoted text with blanks becomes several values. A blank before a comma makes an empty value, and a bar separates values (`[\s|,]`). |
| F131 | `C90_cleanup_blank_refuted` | `cleanup_str_input` joins line ends before it shrinks blanks (util_misc.py:289-291): a line of blanks stays as a line with one space. |
| F132 | `C90_sort_decimals_refuted` | `sort_nicely` (util_misc.py:1123) takes the digits after a point as a whole number: 0.9 comes before 0.10. Capitals come before all small letters. |
| F133 | `C90_records_bytes_refuted`, `C90_records_array` | `pyify` (util_rec.py:57) converts bytes with `str`: in Python 3 "abc" becomes "b'abc'". `irecarray_to_py` raises if a field is an array. |
| F134 | `C90_view_order_refuted` | `fields_view` (util_rec.py:86) makes a dtype from a dict: numpy orders the fields by offset, not as asked for. |
| F135 | `C90_delete_left_refuted` | `delete_FITSheader_axis` (RMpeakfit_3D.py:153) leaves CROTAn, PCi_n, CDi_n and the like, and NAXIS. |
| F136 | `C91_negative_refuted`, `C91_negative_glued` | `rmclean1d -c -5.`, `rmtools_fitIcube -t -1e-3` and the like stop with a usage message: argparse takes -12, -0.5 and -.5 for numbers, but not -5. and not exponents. Glued (`-c-5.`) they work. |
| F137 | `C91_short_forms_refuted` | `rmtools_fitIcube` declares `-f` beside `-freqFile` and `-o` beside `-odir` (do_fitIcube.py:84-155): the short forms `-freq`, `-od` and the like are ambiguous and refused. |
| F138 | `C91_fits_order_refuted` | `rmsynth1dFITS Q.fits U.fits -c RA DEC` is refused by Pythons before 3.12.7 and 3.13.1: the optional coordinates are used up empty before `-c` (do_RMsynth_1D_fromFITS.py:99-120). |
| F139 | `C91_bwpredict_samples_refuted`, `C91_bwpredict` | `rmtools_bwpredict` declares `-s` (rmtools_bwpredict.py:165) and never uses it. If the file cannot be read, `exit` without a call is no exit, and the next statement raises UnboundLocalError. |
| F140 | `C91_testdata_help_refuted` | The help of `rmtools_testdata1D` shows `-f 1.10e9,1.20e9,1.60e9,1.65e9` and `-n NOISE.TXT` (mk_test_ascii_data.py:144-146); both are refused (`-f` takes two numbers, `-n` one). The meanings are those of `-l` and `-t`. |
| F141 | `C91_rmsynth1d`, `C91_rmclean1d`, `C91_qufit`, `C91_bwdepol`, `C91_rmsynth3d`, `C91_rmclean3d`, `C91_fitIcube`, `C91_peakfitcube` | A missing input file ends the tool with `sys.exit()`, that is, with status 0: a script that calls it sees success. |
| F142 | `C91_rmclean3d` | `rmclean3d --chunk` has no effect unless `--ncores` is more than one, also with `--mpi` (do_RMclean_3D.py:520-579). `--ncores 1 --mpi` is not a conflict (`C91_cores_mpi`). |
| F143 | `C91_createchunks` | `rmtools_createchunks` says that the chunks go to the running directory; without `-p` the prefix keeps the directory of the cube (create_chunks.py:67). |
| F144 | `C91_peakfitcube` | `rmtools_peakfitcube` raises IndexError for an empty output name. |
| F145 | `C92_stuck_refuted` | `numpy.clip(wa1, 0, max(wa1))` (mpfit.py:1248-1251) is meant to keep a pegged parameter from leaving its limit. If every component of the step is negative, `max(wa1)` is negative too and the clip leaves the step negative; the step is then shortened to nothing, and the fit reports convergence at the start although a better point is allowed. |
| F146 | `C92_max_step_refuted` | The index of the largest steps is over all parameters, the step itself over the free ones (mpfit.py:1267-1277): `mpmaxstep` beside a fixed parameter raises IndexError. |
| F147 | `C92_missing_value_refuted` | The message 'either P or PARINFO(*)["value"] must be supplied' cannot be reached for an entry without "value": an exception comes first. |
| F148 | `C92_ints_refuted` | Integer starting values use `numpy.float` (mpfit.py:931), which numpy removed in 1.24; `setup.py` allows these versions. |
| F149 | `C92_flag_refuted` | Only the last bit of a `limited` flag is tested at the start (mpfit.py:987-990): with the flag 2 a start outside the limits is accepted and returned. |
| F150 | `C92_lower_refuted` | Derivatives turn round at an upper limit only (mpfit.py:1673-1678): with limits closer than the step, the function is evaluated below the lower limit. |
