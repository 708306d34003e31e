{"id": "C01", "title": "Unique-with-inverse is a faithful factorisation", "statement": "For any 1-D array, the unique helper returns the strictly increasing list of distinct values, the position of the FIRST occurrence of each, an inverse index with uniques[inverse[i]] == data[i] for every i, and counts equal to the number of occurrences of each value (so counts sum to the length). The empty array yields four empty outputs.", "quantifier": "every finite array over any totally ordered element type", "why_tests_cant": "holds for every array length, ordering and repetition pattern; tests sample a few", "anchors": ["africanus/averaging/support.py:_unique_internal,unique_time,unique_baselines"]}
{"id": "C02", "title": "Row map is total, in range and onto", "statement": "If no (time, antenna1, antenna2) triple is duplicated, row_mapper returns (never raises), maps every input row to exactly one output row below the number of output rows, and every output row receives at least one input row.", "quantifier": "every set of rows (any number, order, missing baselines/times), every interval, flag pattern and bin width", "why_tests_cant": "quantifies over all row orders, missing data and bin widths", "anchors": ["africanus/averaging/time_and_channel_mapping.py:row_mapper"]}
{"id": "C03", "title": "Duplicate time/baseline rows are rejected", "statement": "row_mapper raises ValueError exactly when two distinct input rows share the same time, antenna1 and antenna2.", "quantifier": "every input row table", "why_tests_cant": "iff over all row tables", "anchors": ["africanus/averaging/time_and_channel_mapping.py:row_mapper"]}
{"id": "C04", "title": "Averaging never mixes baselines and bins are time-contiguous", "statement": "Two input rows mapped to the same output row belong to the same (antenna1, antenna2) pair, and if two rows of one baseline share an output row then every row of that baseline with a time in between shares it too.", "quantifier": "every row table without duplicates", "why_tests_cant": "all permutations of rows / missing samples", "anchors": ["africanus/averaging/time_and_channel_mapping.py:row_mapper"]}
{"id": "C05", "title": "Output rows are time ordered", "statement": "The averaged times returned by row_mapper are non-decreasing, and ties are ordered by baseline.", "quantifier": "every row table without duplicates", "why_tests_cant": "all inputs", "anchors": ["africanus/averaging/time_and_channel_mapping.py:row_mapper"]}
{"id": "C06", "title": "Row times are bin means and intervals are bin sums", "statement": "Each output time is the sum of the times of exactly the rows mapped to it divided by their number, and each output interval is the sum of their intervals (flagged rows included, as the code comments say).", "quantifier": "every row table without duplicates", "why_tests_cant": "exact accounting over all inputs", "anchors": ["africanus/averaging/time_and_channel_mapping.py:row_mapper"]}
{"id": "C07", "title": "Output row flag iff all contributing rows flagged", "statement": "An output row is flagged exactly when every input row mapped to it is flagged; the 'unflagged input contributes to flagged output' exception is never raised.", "quantifier": "every row table and flag pattern (any non-zero value counts as flagged)", "why_tests_cant": "all flag patterns", "anchors": ["africanus/averaging/time_and_channel_mapping.py:row_mapper,set_flag_row_factory"]}
{"id": "C08", "title": "A time bin never exceeds the requested number of seconds", "statement": "For rows with a common interval, every bin holding more than one row spans at most time_bin_secs from the start of its first sample to the end of its last.", "quantifier": "every row table with a common interval", "why_tests_cant": "all time grids, gaps and bin widths", "anchors": ["africanus/averaging/time_and_channel_mapping.py:row_mapper"]}
{"id": "C09", "title": "Time bins are filled greedily", "statement": "A new time bin is opened only when adding the sample would stretch the current bin beyond time_bin_secs (documented behaviour: time_bin_secs is the maximum summed interval per bin).", "quantifier": "every row table", "why_tests_cant": "all inputs; the shipped tests use a single bin boundary", "anchors": ["africanus/averaging/time_and_channel_mapping.py:row_mapper"]}
{"id": "C10", "title": "Channel map partitions the band", "statement": "channel_mapper assigns channel c to bin floor(c / chan_bin_size), the number of bins is ceil(nchan / chan_bin_size), every bin but the last holds exactly chan_bin_size channels and the last holds between 1 and chan_bin_size.", "quantifier": "every nchan and every positive bin size", "why_tests_cant": "all sizes", "anchors": ["africanus/averaging/time_and_channel_mapping.py:channel_mapper"]}
{"id": "C11", "title": "Row averaging is the documented weighted reduction", "statement": "row_average returns, per output row, the mean of uvw and time_centroid, the sums of exposure and weight and sqrt(sum w^2 s^2)/sum w for sigma over exactly the input rows whose flag matches the output flag, and antenna ids equal to those of every contributing row.", "quantifier": "every row map, flag pattern, correlation count", "why_tests_cant": "exact accounting for all inputs", "anchors": ["africanus/averaging/time_and_channel_avg.py:row_average,matching_flag_factory"]}
{"id": "C12", "title": "Row/channel averaging is the documented weighted mean", "statement": "row_chan_average returns in each output cell sum(w*v)/sum(w) over exactly the unflagged contributing samples if there is one, otherwise over the flagged ones; weight_spectrum is the sum of the same samples' weights and sigma_spectrum is sqrt(sum w^2 s^2 / (sum w)^2).", "quantifier": "every row map, channel map, flag pattern, weights, presence/absence of each optional column", "why_tests_cant": "exact accounting for all inputs and optional-column combinations", "anchors": ["africanus/averaging/time_and_channel_avg.py:row_chan_average,vis_add_factory,sigma_spectrum_add_factory"]}
{"id": "C13", "title": "Averaged cell flag iff all contributing samples flagged", "statement": "An averaged (row, channel, correlation) cell is flagged exactly when every contributing sample is flagged, and 'Zero-filled bin' is never raised when row flags are 0/1.", "quantifier": "every map and flag cube", "why_tests_cant": "all flag patterns", "anchors": ["africanus/averaging/time_and_channel_avg.py:row_chan_average"]}
{"id": "C14", "title": "Weighted visibility is conserved", "statement": "When nothing is flagged and no bin has zero total weight, the sum over output cells of averaged visibility times summed weight equals the sum over input cells of visibility times weight.", "quantifier": "every row map, channel map, visibility and weight cube", "why_tests_cant": "conservation law over all inputs", "anchors": ["africanus/averaging/time_and_channel_avg.py:row_chan_average"]}
{"id": "C15", "title": "Channel metadata averaging conserves bandwidth", "statement": "chan_average returns mean channel frequency and summed width, effective bandwidth and resolution per bin; total width, effective bandwidth and resolution are conserved.", "quantifier": "every channel count and bin size", "why_tests_cant": "all sizes", "anchors": ["africanus/averaging/time_and_channel_avg.py:chan_average"]}
{"id": "C16", "title": "Merging row flags and cell flags", "statement": "merge_flags returns the supplied flag_row when it is consistent with flag, raises ValueError exactly when some row's flag_row disagrees with 'all cells of that row flagged', and derives flag_row as that conjunction when only flag is supplied.", "quantifier": "every flag_row / flag combination including absent ones", "why_tests_cant": "all flag cubes", "anchors": ["africanus/averaging/time_and_channel_avg.py:merge_flags"]}
{"id": "C17", "title": "Channel/correlation inference is consistent", "statement": "chan_corrs returns the common channel and correlation size of the supplied arrays (0 if none is supplied); it raises ValueError exactly when, scanning the supplied arrays in the documented order, one has an extent different from an earlier non-zero extent.", "quantifier": "every combination of present/absent arrays", "why_tests_cant": "all combinations", "anchors": ["africanus/averaging/time_and_channel_avg.py:find_chan_corr,chan_corrs"]}
{"id": "C18", "title": "Aggregated dask chunks cover the same extent", "statement": "aggregate_chunks returns chunks whose boundaries are a subset of the original boundaries with the same total per dimension, and every aggregate stays within the maximum unless it is a single original chunk that already exceeds it.", "quantifier": "every chunk tuple, any number of dimensions", "why_tests_cant": "all chunkings", "anchors": ["africanus/util/shapes.py:aggregate_chunks"]}
{"id": "C19", "title": "Aggregation is greedy and adds no empty chunk", "statement": "Two adjacent aggregates could not have been merged without exceeding some maximum; and no empty chunk is introduced when the first chunk fits in the maximum.", "quantifier": "every chunk tuple", "why_tests_cant": "all chunkings", "anchors": ["africanus/util/shapes.py:aggregate_chunks"]}
{"id": "C20", "title": "Correlation shapes hold exactly ncorr elements", "statement": "corr_shape returns a shape whose product is ncorr whenever it returns, and rejects exactly the unsupported requests.", "quantifier": "every ncorr and every shape name", "why_tests_cant": "unbounded ncorr", "anchors": ["africanus/util/shapes.py:corr_shape"]}
{"id": "C21", "title": "CUDA grids cover the domain minimally", "statement": "grids returns, per dimension, the least number of blocks that covers the dimension, and rejects non-3-tuples.", "quantifier": "every dims/blocks with positive blocks", "why_tests_cant": "all sizes", "anchors": ["africanus/util/cuda.py:grids"]}
{"id": "C22", "title": "Register assignment cycles implement the rotation", "statement": "register_assign_cycles never fails its internal assertion; its cycles contain each moved element exactly once, chain consistently (each step's source is the next step's destination, last closing on the first) and executing them with one temporary realises the cyclic rotation in place.", "quantifier": "every N and case", "why_tests_cant": "all N", "anchors": ["africanus/util/jinja2.py:register_assign_cycles"]}
{"id": "C23", "title": "Singleton is constructed at most once", "statement": "However calls to instance() interleave across threads, the constructor runs exactly once (if the instance is truthy) and every call returns that same object.", "quantifier": "every number of threads and every interleaving", "why_tests_cant": "all interleavings of a data race protocol", "anchors": ["africanus/util/code.py:SingletonMixin"]}
{"id": "C24", "title": "Memoised function runs once per key", "statement": "Under any interleaving of calls, the wrapped function returns at most once for each key, all callers with that key get that value, a raising call is not cached and propagates, and calls with a different key are unaffected.", "quantifier": "every sequence/interleaving of calls", "why_tests_cant": "all histories", "anchors": ["africanus/util/code.py:memoize_on_key"]}
{"id": "C25", "title": "Optional requirement decorator decision table", "statement": "requires_optional returns the original function iff all named packages import and no user ImportError was supplied; raises ImportError at decoration if packages import but user errors were supplied; otherwise returns a stub that skips in pytest (unless forced) and raises MissingPackageException listing exactly the missing packages outside it.", "quantifier": "every requirement list and environment", "why_tests_cant": "all combinations", "anchors": ["africanus/util/requirements.py:requires_optional"]}
{"id": "C26", "title": "predict_vis evaluates the measurement equation", "statement": "predict_vis(row, chan) equals G_p (B_pq + sum_s E_ps X_s E_qs^H) G_q^H with absent terms treated as identity/zero, for scalar, diagonal and 2x2 Jones matrices.", "quantifier": "every number of sources, times, antennas, channels and every admissible combination of optional terms", "why_tests_cant": "all sizes and 2^k optional-term combinations", "anchors": ["africanus/rime/predict.py:predict_vis,sum_coherencies,apply_dies,jones_mul_factory"]}
{"id": "C27", "title": "Sources superpose", "statement": "Predicting a sky that is the concatenation of two source lists equals the sum of the two predictions (no direction-independent terms), and reordering sources does not change the result.", "quantifier": "every pair of source lists", "why_tests_cant": "all source lists", "anchors": ["africanus/rime/predict.py:predict_vis"]}
{"id": "C28", "title": "Streamed and tree reductions over source chunks agree with the un-chunked prediction", "statement": "For every chunking of the source, row and channel axes the dask prediction, in streams (any schedule) or tree-reduction (any tree) mode, equals the prediction over all sources, whenever at least one of the direction-dependent terms, coherencies or direction-independent terms is supplied (with base visibilities only the dask function raises ValueError although the numpy function returns them).", "quantifier": "every source chunking, every schedule", "why_tests_cant": "all chunkings/schedules", "anchors": ["africanus/rime/dask_predict.py:predict_vis,linear_reduction,parallel_reduction,LinearReduction"]}
{"id": "C29", "title": "predict_vis argument checks", "statement": "predict_vis accepts exactly those combinations in which the two direction-dependent terms (and the two direction-independent terms) are supplied in pairs, the numbers of correlation dimensions agree, at least one of coherencies/ddes/dies/base_vis is supplied and there is at least one row; it raises ValueError otherwise. The dask version accepts exactly the chunkings with equal chunks for a pair of terms, one antenna chunk and as many time chunks as row chunks.", "quantifier": "every combination of present/absent arguments", "why_tests_cant": "all combinations", "anchors": ["africanus/rime/predict.py:predict_checks,_get_jones_types"]}
{"id": "C30", "title": "Phase delay is a unit-modulus character", "statement": "phase_delay has modulus 1, conventions 'fourier' and 'casa' are complex conjugates, negating uvw conjugates it, the phase centre gives 1, delays multiply under addition of uvw, and an unknown convention is rejected.", "quantifier": "every lm inside the unit disc (and any lm for the clamped n), uvw, frequency", "why_tests_cant": "continuous domain", "anchors": ["africanus/rime/phase.py:phase_delay"]}
{"id": "C31", "title": "Feed rotation matrices are rotations", "statement": "feed_rotation(linear) is orthogonal with determinant 1 and composes additively in angle; feed_rotation(circular) is unitary diagonal; converting linear to circular basis conjugates one to the other.", "quantifier": "every angle", "why_tests_cant": "continuous domain", "anchors": ["africanus/rime/feeds.py:feed_rotation"]}
{"id": "C32", "title": "Source transformation rotates coordinates", "statement": "transform_sources applies pointing errors and frequency scaling to coordinates whose first component is rotated by the parallactic angle; the second component is the rotated one exactly when sin(angle)=0 or the rotation leaves l unchanged. (The intended claim, that every source is rotated with its radius preserved, is false: the code overwrites l before computing m.) Mismatched shapes raise AssertionError.", "quantifier": "every lm, angle, frequency", "why_tests_cant": "continuous domain", "anchors": ["africanus/rime/transform.py:transform_sources"]}
{"id": "C33", "title": "WSClean prediction superposes sources", "statement": "wsclean_predict returns the sum over components of flux(nu) * envelope * exp of the signed phase delay, so predictions of concatenated lists add; negating uvw conjugates; a GAUSSIAN whose major axis is zero equals a POINT. It raises ValueError exactly when some component has an unknown type or a rejected logarithmic spectrum. The dask version equals it for every chunking of sources, rows and channels when the coefficients are in one chunk (and drops the other chunks otherwise).", "quantifier": "every source list, uvw, frequencies, coefficients and chunking", "why_tests_cant": "all sources", "anchors": ["africanus/rime/wsclean_predict.py:wsclean_predict_impl,wsclean_predict"]}
{"id": "C34", "title": "Frequency grid interpolation brackets", "statement": "For a strictly increasing grid of at least two beam frequencies, freq_grid_interp brackets every frequency: it returns an existing pair of neighbouring planes and weights in [0,1] that add to one and reproduce the frequency by linear interpolation. Below or above the grid it takes the end plane and returns the ratio of the frequency to that plane's frequency, so that scale times clamped frequency is the frequency.", "quantifier": "every frequency and every strictly increasing grid of length >= 2", "why_tests_cant": "all grids", "anchors": ["africanus/rime/fast_beam_cubes.py:freq_grid_interp"]}
{"id": "C35", "title": "Beam interpolation is exact at grid nodes and a convex combination elsewhere", "statement": "If the frequency map has one strictly increasing entry per beam plane and every beam axis has at least two samples, beam_cube_dde never indexes outside the cube. Each Jones term has the trilinearly interpolated amplitude and the phase of the trilinearly interpolated complex value, at the frequency-scaled, offset, rotated and antenna-scaled coordinate clamped to the cube. Amplitudes stay within those of the cube (or are zero when the samples cancel), grid nodes return the sample, smaller cubes raise ValueError, and the dask wrapper gives the same values for every chunking of sources, times, antennas and channels and refuses a chunked beam. A frequency map longer than the cube is not detected and reads outside it.", "quantifier": "every cube, extent, coordinate, pointing error, scaling, angle, frequency, array size and chunking", "why_tests_cant": "all sizes and coordinates", "anchors": ["africanus/rime/fast_beam_cubes.py:beam_cube_dde"]}
{"id": "C36", "title": "Corrupting with gains is the measurement equation", "statement": "corrupt_vis returns sum_s G_p,s M_s G_q,s^H per row/channel in each of the three polarisation modes, with gains taken at the time bin of the row.", "quantifier": "every row/time-bin layout, directions, antennas", "why_tests_cant": "all sizes and modes", "anchors": ["africanus/calibration/utils/corrupt_vis.py:corrupt_vis,jones_mul_factory"]}
{"id": "C37", "title": "Correction inverts corruption", "statement": "correct_vis(corrupt_vis(model)) == model for one direction whenever all gains are invertible, on unflagged data.", "quantifier": "every gain with non-zero (determinant) entries and every model", "why_tests_cant": "all invertible gains", "anchors": ["africanus/calibration/utils/correct_vis.py:correct_vis", "africanus/calibration/utils/corrupt_vis.py:corrupt_vis"]}
{"id": "C38", "title": "Residual is data minus corrupted model", "statement": "residual_vis equals vis - corrupt_vis(model) on cells without flags and zero on flagged ones.", "quantifier": "all inputs and modes", "why_tests_cant": "all inputs", "anchors": ["africanus/calibration/utils/residual_vis.py:residual_vis,subtract_model_factory"]}
{"id": "C39", "title": "Row chunking for calibration never splits a time bin", "statement": "chunkify_rows returns row chunks summing to the number of rows and aligned with unique-time boundaries, with time-bin indices and counts that locate each unique time.", "quantifier": "every time column and utimes-per-chunk", "why_tests_cant": "all time columns", "anchors": ["africanus/calibration/utils/utils.py:chunkify_rows"]}
{"id": "C40", "title": "Chunked calibration equals whole-array calibration", "statement": "Applying corrupt/correct/residual per row chunk aligned with time bins (bin indices rebased by their minimum) and concatenating equals applying it once to the whole.", "quantifier": "every aligned chunking", "why_tests_cant": "all chunkings", "anchors": ["africanus/calibration/utils/dask.py", "africanus/calibration/utils/corrupt_vis.py"]}
{"id": "C41", "title": "Polarisation-mode inference", "statement": "check_type maps jones and visibility dimensions to the calibration mode and rejects inconsistent ones.", "quantifier": "every dimension count and correlation size", "why_tests_cant": "all combinations", "anchors": ["africanus/calibration/utils/utils.py:check_type"]}
{"id": "C42", "title": "compute_and_corrupt equals corrupting the predicted model", "statement": "compute_and_corrupt_vis equals corrupt_vis applied to the predicted model visibilities: for every row of a time bin the sum over directions of G_p (B exp(-2 pi i f/c (ul+vm+w(n-1))) / n) G_q^H, zero for other rows. The dask version gives the same blocks for chunks aligned with the time bins and raises ValueError when antenna, direction or coordinate axes are chunked.", "quantifier": "every model image, gain array and calibration mode, every lm, uvw, frequency, time-bin layout and aligned chunking", "why_tests_cant": "all inputs", "anchors": ["africanus/calibration/utils/compute_and_corrupt_vis.py:compute_and_corrupt_vis"]}
{"id": "C43", "title": "Phase-only Gauss-Newton iteration", "statement": "J^H J and J^H r are exactly the sums over the unflagged rows of a time bin of the squared moduli and residual products of the derivatives of the corrupted model with respect to the gain phases. gauss_newton adds half of re(J^H r)/J^H J (J^H J of the initial gains, data and model whitened by sqrt(weight)) to each phase, repeats exactly while some change exceeds tol and fewer than maxiter steps were taken, returns gains of unit modulus, returns exact gains unchanged after one step, and carries a phase common to all antennas through unchanged. Without any step (maxiter = 0 or tol >= 1) it raises NameError. Data and model of the caller are whitened in place. The dask versions return per row chunk the part of the whole for the times of that chunk, but declare row sizes instead of time sizes.", "quantifier": "every gain, data, model, flag, weight, time-bin layout, tolerance and iteration limit", "why_tests_cant": "all inputs, iteration counts", "anchors": ["africanus/calibration/phase_only/phase_only.py:gauss_newton,compute_jhj,compute_jhr"]}
{"id": "C44", "title": "Hogbom CLEAN conserves flux", "statement": "The image pair returned by hogbom_clean reproduces the dirty image: at every pixel dirty = residual + sum over components of clean[p,q] times psf[n-1+x-p, n-1+y-q], i.e. with the PSF centred on pixel (n-1,n-1) of its (2n,2n) image. restore convolves the components with the fitted beam in the same alignment and adds the residual, so it returns the dirty image when the beam is the PSF; the fitted beam has peak one.", "quantifier": "every dirty image, PSF, gain, threshold and number of iterations", "why_tests_cant": "loop invariant over any number of iterations", "anchors": ["africanus/deconv/hogbom/clean.py:hogbom_clean,update_residual"]}
{"id": "C45", "title": "Hogbom CLEAN stopping rule", "statement": "hogbom_clean makes k minor cycles with k <= niter + 1 (niter defaults to three times the image width); each cycle works on a pixel with the largest signed residual, whose absolute value exceeds threshold times the absolute value of the largest dirty pixel; it stops with k <= niter only when the largest residual no longer does. A PSF that is not twice the image raises ValueError, a non-square image AssertionError.", "quantifier": "every input", "why_tests_cant": "all iteration counts", "anchors": ["africanus/deconv/hogbom/clean.py:hogbom_clean"]}
{"id": "C46", "title": "Peak search finds the extrema", "statement": "find_peak returns the last pixel in row-major order that holds the largest signed value, that value, and the last pixel holding the smallest value; an empty image raises ValueError.", "quantifier": "every image", "why_tests_cant": "all images", "anchors": ["africanus/deconv/hogbom/clean.py:find_peak"]}
{"id": "C47", "title": "Direct Fourier transforms are adjoint", "statement": "For every real image x and unflagged complex visibilities V, Re<V, im_to_vis(x)> == <vis_to_im(V), x>; both are linear.", "quantifier": "every uvw, lm, frequency set, image and visibility", "why_tests_cant": "continuous domain, all sizes", "anchors": ["africanus/dft/kernels.py:im_to_vis,vis_to_im"]}
{"id": "C48", "title": "vis_to_im ignores flagged channels and sums over row chunks", "statement": "vis_to_im over concatenated rows is the sum over the parts; a (row,channel) with any correlation flagged contributes nothing; the dask version equals the direct one for every chunking of rows, sources and channels, and for every chunking of correlations when the flags do not depend on the correlation. (For correlation-dependent flags, splitting the correlations changes the result.)", "quantifier": "every row split and flag pattern", "why_tests_cant": "all splits", "anchors": ["africanus/dft/kernels.py:vis_to_im", "africanus/dft/dask.py:vis_to_im"]}
{"id": "C49", "title": "im_to_vis zero-pixel shortcut is invisible", "statement": "Skipping pixels whose value is exactly zero does not change im_to_vis, visibilities are the sum over pixels, the dask version equals the direct one for every chunking of rows, channels and correlations, and mismatched chunks or an unknown convention are rejected.", "quantifier": "every image", "why_tests_cant": "all images", "anchors": ["africanus/dft/kernels.py:im_to_vis", "africanus/dft/dask.py:im_to_vis"]}
{"id": "C50", "title": "Stokes/correlation conversion round-trips", "statement": "convert from Stokes I, Q, U, V to linear (or circular) correlations gives the coherency matrix [[I+Q, U+iV], [U-iV, I-Q]] (or [[I+V, Q+iU], [Q-iU, I-V]]), and converting back is the identity; starting from correlations the round trip through Stokes is the identity whenever they form a Hermitian matrix (and not otherwise). Independent of the order and nesting of the two schemas.", "quantifier": "every real Stokes values or Hermitian correlations in any commutative ring containing 1/2; every regular input and output schema; every leading shape", "why_tests_cant": "continuous values, all schema orders and nestings", "anchors": ["africanus/model/coherency/conversion.py:stokes_conv,convert_setup,convert_impl,convert"]}
{"id": "C51", "title": "Stokes conversion schema handling", "statement": "A schema is accepted iff every element is a sequence or a known polarisation, no polarisation occurs twice and sequences at equal depth have equal length; the positions and shape found are those of the nested lists. Conversion with regular schemas succeeds iff the input's trailing dimensions match and every requested output has one of its input pairs; the output then has exactly the output-schema shape, every element is written, and every leading index is converted on its own (so any blocking of the leading dimensions gives the same result).", "quantifier": "every nested schema, every array and every blocking of the leading dimensions", "why_tests_cant": "all schemas", "anchors": ["africanus/model/coherency/conversion.py:convert_setup,_element_indices_and_shape,convert_impl", "africanus/model/coherency/dask.py:convert"]}
{"id": "C52", "title": "Gaussian shape function is a visibility envelope", "statement": "gaussian() is the visibility envelope of an elliptical Gaussian with the given full widths at half maximum and position angle; its values lie in (0,1], it is 1 at uv=0 and for a zero major axis, even in uv, depends on frequency only through scaled uv and, for a round Gaussian, not on the angle.", "quantifier": "every uvw, frequency and shape", "why_tests_cant": "continuous domain", "anchors": ["africanus/model/shape/gaussian_shape.py:gaussian"]}
{"id": "C53", "title": "Spectral model equals Stokes at reference frequency", "statement": "spectral_model follows the power law / natural log / decimal log curve its base names, per polarisation, a short base list being extended with its last entry; at the reference frequency it returns the Stokes parameter; unknown bases and mismatched dimensions raise ValueError; the numpy reference agrees whenever the base list is not longer than the polarisations; the dask version equals it for every chunking if the base is single or the polarisations are in one chunk.", "quantifier": "every order, frequency, coefficients, base and chunking", "why_tests_cant": "all orders", "anchors": ["africanus/model/spectral/spec_model.py:spectral_model,numpy_spectral_model"]}
{"id": "C54", "title": "WSClean spectra", "statement": "spectra() follows ordinary/logarithmic polynomials, equals the flux at the reference frequency, agrees with the numpy reference, and raises ValueError exactly when a logarithmic source has a non-positive flux or a non-positive coefficient, or shapes do not match.", "quantifier": "every source list, coefficient list and frequencies", "why_tests_cant": "all orders", "anchors": ["africanus/model/wsclean/spec_model.py:spectra"]}
{"id": "C55", "title": "WSClean file loading keeps rows aligned", "statement": "load() returns the columns in header order, each with one value per source line in file order, value i of column c being the converted c-th field of line i (commas inside non-nested brackets do not separate; empty fields take the header's default). Missing or wrong headers, unregistered columns and lines with the wrong number of fields raise. Angles are read as sexagesimal hours or degrees with at most one sign, and are not validated past the seconds.", "quantifier": "every file, every set of registered columns and defaults, every number of lines, every text of the fields", "why_tests_cant": "all files", "anchors": ["africanus/model/wsclean/file_model.py:load,_parse_lines,_parse_header"]}
{"id": "C56", "title": "Spectral index fit is Gauss-Newton least squares", "statement": "fit_spi_components runs at most maxiter Gauss-Newton steps of the weighted least squares problem from the given or default start, stops at the first change of at most tol, leaves parameters that reproduce the data unchanged with zero variances, stands still exactly at stationary points of the misfit, returns non-negative variances, and does not depend on how components are chunked. Channels must be in a single chunk.", "quantifier": "every number of components and channels, data, weights, frequencies, beam, start, tolerance and iteration limit", "why_tests_cant": "all inputs", "anchors": ["africanus/model/spi/component_spi.py:fit_spi_components,_fit_spi_components_impl", "africanus/model/spi/dask.py:fit_spi_components"]}
{"id": "C57", "title": "Kronecker mat-vec equals the dense product", "statement": "kron_matvec(A, b) == (A_1 (x) ... (x) A_D) b without forming the product.", "quantifier": "every number of factors, every square sizes, every vector over any commutative ring", "why_tests_cant": "all sizes", "anchors": ["africanus/linalg/kronecker_tools.py:kron_matvec,kron_N"]}
{"id": "C58", "title": "Rectangular Kronecker mat-vec equals the dense product", "statement": "kron_tensorvec(A, b) == (A_1 (x) ... (x) A_D) b for rectangular factors of fewer than 128 rows/columns.", "quantifier": "every rectangular factor list", "why_tests_cant": "all sizes", "anchors": ["africanus/linalg/kronecker_tools.py:kron_tensorvec"]}
{"id": "C59", "title": "Kronecker mat-mat applies the dense operator to every column", "statement": "kron_matmat and kron_tensormat return the matrix whose column i is the Kronecker operator applied to column i of B, for real data (the result array is float64, so the imaginary part of complex data is discarded).", "quantifier": "every list of square (respectively rectangular, below 128 rows and columns) factors and every matrix B with matching rows", "why_tests_cant": "all sizes", "anchors": ["africanus/linalg/kronecker_tools.py:kron_matmat,kron_tensormat"]}
{"id": "C60", "title": "Split boxes tile the parent box", "statement": "BoundingBoxFactory.SplitBox(box, n) returns n*n boxes in row-major order that are inside the parent and cover every pixel of it exactly once, each with the part of the parent's mask inside it, whenever each side can be cut into n equal pieces (the last possibly shorter) at least two pixels wide; n < 1 raises ValueError.", "quantifier": "every box, every n, every mask", "why_tests_cant": "all geometries", "anchors": ["africanus/linalg/geometry.py:BoundingBoxFactory.SplitBox"]}
{"id": "C61", "title": "Padding a box gives the requested size and says exactly when the original stays inside", "statement": "PadBox(box, nx, ny) returns a box of exactly the requested size, centred within one pixel, keeping the mask pixels inside it, and containing the original box except, per axis, exactly when an even side is not enlarged and the centre is positive (the last pixel is then lost); a smaller size raises ValueError.", "quantifier": "every box and every size", "why_tests_cant": "all geometries", "anchors": ["africanus/linalg/geometry.py:BoundingBoxFactory.PadBox"]}
{"id": "C62", "title": "Normalised masks form a partition of unity", "statement": "After normalize_masks every pixel covered by k regions has weight 1/k in each of them, so the weights of a covered pixel sum to one and of an uncovered pixel to zero; no pixels at all raises IndexError.", "quantifier": "every list of regions without repeated pixels, with non-negative x coordinates (any y), hulls and boxes mixed, with or without only_overlapped_regions (unit initial weights with)", "why_tests_cant": "all region sets", "anchors": ["africanus/linalg/geometry.py:BoundingConvexHull.normalize_masks"]}
{"id": "C63", "title": "Extract then project regions reconstructs the image", "statement": "regional_data returns the window of the zero-extended image times the mask weights; project_regions sums facets at their places in the smallest enclosing box; extraction followed by projection multiplies every pixel by the sum of the weights, so with normalised masks it reproduces the image on the union of the masks and gives zero elsewhere; facets of the wrong shape raise ValueError.", "quantifier": "every image, every list of boxes meeting it whose lower corner is within the (exchanged) axis check, every masks", "why_tests_cant": "all tilings", "anchors": ["africanus/linalg/geometry.py:BoundingBox.project_regions,BoundingConvexHull.regional_data"]}
{"id": "C64", "title": "Direction cosines lie on the unit sphere and round-trip", "statement": "radec_to_lmn and radec_to_lm return the components of the source direction along east and north at the phase centre (origin if none is given); radec_to_lmn also returns the non-negative n with l^2+m^2+n^2=1, which is the component towards the centre for sources within 90 degrees. lmn_to_radec and lm_to_radec invert them for declinations strictly between the poles, sources within 90 degrees of the centre and right ascensions less than 90 degrees apart, and lm -> radec -> lm is the identity on the near side of the pole. Arrays with the wrong number of components raise ValueError and the dask wrappers agree for every chunking of sources. A source across the pole comes back half a turn away in right ascension, and a source more than 90 degrees away gets n of the wrong sign.", "quantifier": "every source, phase centre, array size and chunking", "why_tests_cant": "continuous domain", "anchors": ["africanus/coordinates/coordinates.py:radec_to_lmn", "africanus/coordinates/coordinates.py:radec_to_lm", "africanus/coordinates/coordinates.py:lmn_to_radec", "africanus/coordinates/coordinates.py:lm_to_radec", "africanus/coordinates/dask.py"]}
{"id": "C65", "title": "Packed and unpacked convolution kernels are interchangeable", "statement": "pack_kernel and unpack_kernel are inverse to each other; every visibility position has exactly one nearest cell and sample offset; the sample used for a cell is the kernel at the cell's distance from the position to within one sample; and gridding or degridding with a packed kernel gives exactly the result of the unpacked kernel.", "quantifier": "every kernel, odd support, oversampling and position", "why_tests_cant": "all sizes", "anchors": ["africanus/gridding/perleypolyhedron/kernels.py:pack_kernel,unpack_kernel", "africanus/gridding/perleypolyhedron/policies/convolution_policies.py"]}
{"id": "C66", "title": "Scatter and gather place the kernel correctly and are adjoint", "statement": "The 1-D axisymmetric scatter adds to each cell inside the grid the Stokes value times the kernel taps of that cell, touches nothing else, and returns the weight of all taps; gather returns the kernel-weighted sum of the cells under the kernel divided by the taps inside (plus 1e-8), with the coefficient of each correlation; the two are adjoint up to that weight.  Nearest-neighbour scatter is correct only when the nearest cell is inside the grid.", "quantifier": "every visibility position, kernel, grid and correlation layout", "why_tests_cant": "all positions", "anchors": ["africanus/gridding/perleypolyhedron/policies/convolution_policies.py"]}
{"id": "C67", "title": "Stokes gridding policies round-trip", "statement": "For each correlation layout and Stokes parameter in it, the stokes2corr policy adds the parameter with its coefficient to every correlation, the corr2stokes policy reads it back, and writing one and reading another gives zero; unknown policy names are refused.  There is no policy reading Q from RL, LR, and a view shorter than the policy is read outside its bounds.", "quantifier": "all values, layouts, policy names", "why_tests_cant": "continuous values", "anchors": ["africanus/gridding/perleypolyhedron/policies/stokes_conversion_policies.py"]}
{"id": "C68", "title": "Phase rotation to a facet centre is undone by the reverse rotation", "statement": "phase_rotate multiplies each channel by the unit-modulus factor exp(2 pi i s (u l + v m + w (n - 1)) / lambda) of the facet direction, leaves visibilities alone when the centres agree, and is undone by the opposite sign; this is the factor of the true direction only for facets in front of the phase centre; unknown policies are refused.", "quantifier": "all uvw, wavelengths and directions", "why_tests_cant": "continuous domain", "anchors": ["africanus/gridding/perleypolyhedron/policies/phase_transform_policies.py:phase_rotate"]}
{"id": "C69", "title": "uvw rotation: the matrix is a rotation, the code is not", "statement": "The matrix used by the rotate policy is a rotation between the frames of the two centres, but the policy applies it in place reading already overwritten components and the element after the row, so the baseline length is not preserved; wlinapprox computes the documented sheared coordinates; unknown policies are refused.", "quantifier": "all uvw, directions", "why_tests_cant": "continuous domain", "anchors": ["africanus/gridding/perleypolyhedron/policies/baseline_transform_policies.py:uvw_rotate"]}
{"id": "C70", "title": "Gridding is linear, additive over rows, and sums kernel-weighted Stokes values", "statement": "Every cell of the grid holds the sum over rows and channels of the band of kernel weight times the Stokes value of the phase-rotated visibility, on request divided by the weights. Gridding is linear in the visibilities and the grid of concatenated rows is the sum of grids. The chunked version averages blocks of rows and reads only the first chunk of channels, so it agrees with the whole grid only up to the number of blocks; facets share the arrays they transform in place, so only without transform policies is each facet the grid of the given data.", "quantifier": "every number of rows and channels, grid size, policy, visibilities, row split and chunking", "why_tests_cant": "tests grid a few fixed arrays with a single chunk and facet", "anchors": ["africanus/gridding/perleypolyhedron/gridder.py:gridder", "africanus/gridding/perleypolyhedron/dask.py:gridder"]}
{"id": "C71", "title": "Degridding rows are independent of order, block and chunk", "statement": "A degridded row is the kernel-weighted cells at its own baseline; a block of rows degrids on its own to what it is in the whole; the parallel loop gives the serial answer in every order unless the baseline policy is 'rotate', which reads the next row; the chunked version without transform policies is the sum over the facets of the whole computation.", "quantifier": "every number of rows and channels, order of the parallel loop, chunking and grid", "why_tests_cant": "tests cannot enumerate schedules or chunkings", "anchors": ["africanus/gridding/perleypolyhedron/degridder.py:degridder", "africanus/gridding/perleypolyhedron/degridder.py:degridder_serial", "africanus/gridding/perleypolyhedron/dask.py:degridder"]}
{"id": "C72", "title": "Gridding with nifty in streams", "statement": "For every positive number of row blocks and streams the task graph grids each row block exactly once from its own inputs, reads each intermediate grid exactly once, and every schedule in which a task runs once gives the sum over all row blocks, even when the library adds into the grid it is given; some schedule always finishes. With a library additive over rows the grid is that of all rows, whatever the row chunks, streams and schedule; degridding is independent of row chunks. Zero streams or no blocks are errors. A negative number of streams silently gives a zero grid, and running a task again with in-place addition counts rows twice.", "quantifier": "every number of row blocks and streams, every schedule, every library with the stated properties", "why_tests_cant": "all graphs and schedules", "anchors": ["africanus/gridding/nifty/dask.py:GridStreamReduction,FinalGridReduction,grid,degrid,GridderConfigWrapper"]}
{"id": "C73", "title": "Wide-field images by band", "statement": "The dirty image, model visibilities, Hessian and residual of a band are what the gridding library computes on the channels of the band's bin, counted from the lowest bin given; model channels in no bin are zero and the last bin wins. With a linear library the residual equals dirty(vis) minus hessian(model) band by band; with an adjoint pair, predicting and imaging are adjoint when the bins split the channels, and the Hessian is symmetric. The chunked versions agree with the whole-array ones for every row chunking and every channel chunking that goes with the band chunking, for an image in one spatial chunk. Bins that do not start at the first channel, one channel chunk under several band chunks, and images chunked in x or y give different results.", "quantifier": "every library with the stated properties, all data, binnings, row chunkings and matching channel and band chunkings", "why_tests_cant": "all binnings, data and chunkings", "anchors": ["africanus/gridding/wgridder/vis2im.py:dirty", "africanus/gridding/wgridder/im2vis.py:model", "africanus/gridding/wgridder/im2residim.py:residual", "africanus/gridding/wgridder/hessian.py:hessian", "africanus/gridding/wgridder/dask.py:dirty,model,residual,hessian"]}
{"id": "C74", "title": "Squared-exponential covariance and its power spectrum", "statement": "abs_diff of points of equal dimension is the matrix of Euclidean distances and a metric; exponential_squared is sigma^2 exp(-d^2/2l^2), in (0, sigma^2], equal to sigma^2 exactly for equal points, decreasing in distance, transposed by swapping the arguments, and symmetric positive semi-definite for a point set with itself. With pspec the result on a regular grid is a positive Gaussian in the shifted frequencies, largest and symmetric at zero frequency; every other input is an error. Surplus components of the first argument are ignored, and the intended exceptions arrive as TypeError.", "quantifier": "every point set, dimension and non-zero hyper-parameters", "why_tests_cant": "continuous domain and matrices of every size; positive definiteness quantifies over all vectors", "anchors": ["africanus/gps/kernels.py:exponential_squared", "africanus/gps/utils.py:abs_diff"]}
{"id": "C75", "title": "Command-line assignment parser is safe", "statement": "parse_python_assigns calls nothing but slice, whatever the program and whether or not it fails. A program is accepted exactly if every statement assigns literals, or slice of such values, to names or flat tuples or lists of names of matching length; the dictionary then has the last value of each name and no other key, and every value is plain data. Names bound earlier are never looked up. Everything else raises: usually ValueError, but AttributeError for method calls and TypeError for bad calls of slice, unhashable keys and other targets.", "quantifier": "every syntax tree of an input string and every set of builtins", "why_tests_cant": "all programs; a safety claim about what is never executed", "anchors": ["africanus/util/cmdline.py:parse_python_assigns"]}
{"id": "C76", "title": "CASA stokes enumeration is a bijection", "statement": "The polarisation name and code tables agree with casacore's Stokes enumeration and are inverse to each other; all other names and codes are absent.", "quantifier": "every string and every integer", "why_tests_cant": "exhaustive over table and all other keys", "anchors": ["africanus/util/casa_types.py"]}
{"id": "C77", "title": "Beam axes, grids and file names", "statement": "BeamAxes gives each FITS axis its size and stripped name, and a grid linear in the pixel number with CRVAL at pixel CRPIX and steps of CDELT (degrees turned into radians), or the irregular grid if all its cards exist. beam_grids takes the last axis of each kind with its 1-based number, negates the l and m grids exactly if the argument begins with a minus sign, and fails exactly if a kind is missing. beam_filenames gives one entry per requested correlation, keyed by the lower-case name, with real and imaginary file; placeholders are replaced exactly as in the schema grammar, other schemas and unknown ids are ValueErrors, and schemas mentioning correlation and part never share a file.", "quantifier": "every header, axis argument, file name schema and list of correlation ids", "why_tests_cant": "all headers and all strings", "anchors": ["africanus/util/beams.py:BeamAxes", "africanus/util/beams.py:beam_grids", "africanus/util/beams.py:axis_and_sign", "africanus/util/beams.py:beam_filenames", "africanus/util/casa_types.py:STOKES_ID_MAP"]}
{"id": "C78", "title": "The CUDA warp transpose macro transposes", "statement": "Executing the code generated by the register_assign_cycles based warp transpose (shuffle, vertical rotation, shuffle) on an N x N tile held by N threads with N registers each leaves thread t register c holding what thread c register t held, for every N.", "quantifier": "every tile size N and every tile contents", "why_tests_cant": "tests instantiate only a few sizes; the composition of the three rotations must be the transpose for every N", "anchors": ["africanus/rime/cuda/macros.j2:warp_transpose", "africanus/util/jinja2.py:register_assign_cycles"]}
{"id": "C79", "title": "When the averaging row mapper actually opens a bin", "statement": "Because the bin start is only set for the very first bin of a baseline, only that bin can hold more than one sample: every later sample that does not fit counted from the stale start gets a bin of its own.", "quantifier": "every row table", "why_tests_cant": "shipped tests stop at the first bin boundary, so they do not see the later bins", "anchors": ["africanus/averaging/time_and_channel_mapping.py:row_mapper"]}
{"id": "C80", "title": "Kronecker Cholesky factors the whole matrix", "statement": "kron_cholesky(A) returns one factor per matrix such that the Kronecker product L of the factors satisfies L L^H = A_1 (x) ... (x) A_D; a factor that cannot be decomposed is replaced by the factor of the same matrix with 1e-13 added to its diagonal.", "quantifier": "every number of factors, every sizes, every decomposition routine returning factors or raising", "why_tests_cant": "all factor lists", "anchors": ["africanus/linalg/kronecker_tools.py:kron_cholesky"]}
{"id": "C81", "title": "Hull membership and separation are exact half plane tests", "statement": "A pixel is in a BoundingConvexHull iff it is on the inner side of, or on, every edge, so membership is convex; overlaps_with returning False implies that the hulls share no point.", "quantifier": "every list of integer corners, every pixel, every pair of hulls", "why_tests_cant": "all polygons", "anchors": ["africanus/linalg/geometry.py:BoundingConvexHull.__contains__,overlaps_with,normals"]}
{"id": "C82", "title": "Axis aligned bounding boxes contain what they bound", "statement": "AxisAlignedBoundingBox contains the extent of its argument; with enforce_odd both sides are odd and at most one pixel larger; with square and enforce_odd the box around a BoundingBox is square, odd and contains it.", "quantifier": "every extent, mask and flag", "why_tests_cant": "all geometries", "anchors": ["africanus/linalg/geometry.py:BoundingBoxFactory.AxisAlignedBoundingBox"]}
{"id": "C83", "title": "The filled mask is fixed by the first read until invalidated", "statement": "The first read of .mask after invalidate_cached_masks or normalize_masks reflects the last mask set and the last weights; once read, .mask returns the same value after any sequence of sets and reads until the cache is invalidated or the masks are normalised.", "quantifier": "every history of set, read, normalise and invalidate operations", "why_tests_cant": "all histories", "anchors": ["africanus/linalg/geometry.py:BoundingConvexHull.mask,invalidate_cached_masks,sparse_mask,normalize_masks"]}
{"id": "C84", "title": "Parallactic angle backend selection", "statement": "parallactic_angles returns the result of exactly the requested backend, rejects unknown backends and rejects a field centre that is not a pair.", "quantifier": "every backend name, field centre shape and backend behaviour", "why_tests_cant": "backends are optional packages; all names", "anchors": ["africanus/rime/parangles.py:parallactic_angles"]}
{"id": "C85", "title": "Zernike indices and polynomials", "statement": "The zernike index enumerates every valid pair of degree n and order m (|m| <= n, same parity) exactly once, sorted by degree and then by absolute order, cosines at even and sines at odd one-based indices; evaluating any non-negative index at any point raises no exception and gives R_n^|m|(rho) times the cosine or sine of |m| phi, zero outside the unit disc; every radial polynomial is one at the edge. zernike_dde sums coefficient times polynomial at the polar coordinates of each source, and the dask wrapper agrees for every chunking of sources, times, antennas, channels and correlations. Chunking the polynomial dimension is not refused and silently drops all chunks but the first.", "quantifier": "every index, point, coefficient array, array size and chunking", "why_tests_cant": "infinitely many indices; the index map must be a bijection", "anchors": ["africanus/rime/zernike.py:zernike", "africanus/rime/zernike.py:zernike_rad", "africanus/rime/zernike.py:nb_zernike_dde", "africanus/rime/dask.py:zernike_dde"]}
{"id": "C86", "title": "Convolution kernels and detapering", "statement": "sinc and hanningsinc kernels exist exactly for odd supports, are the named windows at the sample positions divided by their sum, sum to one (when that sum is not zero) and are symmetric; compute_detaper_dft, compute_detaper_dft_seperable and compute_detaper (FFT) all give the modulus of the kernel's Fourier transform on the image grid, one at the image centre for a unit kernel.", "quantifier": "every support, oversampling, parameter, image size and kernel", "why_tests_cant": "all sizes and continuous parameters", "anchors": ["africanus/gridding/perleypolyhedron/kernels.py:uspace,sinc,hanningsinc,compute_detaper,compute_detaper_dft,compute_detaper_dft_seperable"]}
{"id": "C87", "title": "Averaging a chunked data set", "statement": "dask time_and_channel averages every row chunk on its own: when all channel chunks but the last hold a whole number of channel bins, every block it computes is the corresponding piece of what the numpy function returns for those rows alone (metadata, row columns, channel vectors, visibilities, flags and spectra), and a block raises when numpy does; with one row chunk this is the unchunked result. Row bins never span row chunks and channel bins start again in every channel chunk, so other chunkings change the answer. The call fails with TypeError when no channel array is supplied, ValueError for channel vectors without any correlation dimension and ZeroDivisionError for bin size zero, and succeeds otherwise. Declared channel chunks are right for cubes but not for chan_freq and its companions when averaging; weight and sigma only cover the first correlation chunk.", "quantifier": "every data set, tiling of rows, channels and correlations, bin size and time bin", "why_tests_cant": "all tilings of all data sets; chunk boundaries interact with bin boundaries", "anchors": ["africanus/averaging/dask.py:time_and_channel", "africanus/averaging/dask.py:row_average,chan_average,row_chan_average", "africanus/averaging/dask.py:_dask_row_mapper,chan_metadata"]}
{"id": "C88", "title": "Cubic splines", "statement": "fit_cubic_spline on increasing knots returns a piecewise cubic that passes through the data, whose orders 1 and 2 are the derivatives of the pieces, whose value and second derivative have no jump at the knots and which goes on as a parabola after the last knot; straight lines are reproduced everywhere. The slope has no jump at a knot exactly when the spline equation holds there, which is so at the first interior knot only: later slopes jump, boundary values are not honoured. Fitting fails with ValueError for boundary types other than (1, any) and (2, 2) and with ZeroDivisionError for repeated knots, and succeeds otherwise unless a left second derivative is given. evaluate_spline rejects orders other than 0, 1, 2 and gives every query its own value when the first query is the least and the last the greatest, but not otherwise.", "quantifier": "every number of knots from two on, all knots, data, boundary conditions and queries", "why_tests_cant": "holds between knots for a continuum of points; the existing test only uses one parabola", "anchors": ["africanus/averaging/splines.py:solve_trid_system", "africanus/averaging/splines.py:fit_cubic_spline", "africanus/averaging/splines.py:evaluate_spline"]}
{"id": "C89", "title": "Estimating progress bar", "statement": "EstimatingProgressBar counts, for every bin of tasks, the tasks of the graph, the finished ones and the time they took, after any history of started and finished tasks; finishing a task that is not running raises KeyError. While nothing has finished it shows no estimate; afterwards the estimate is the elapsed time scaled by the time needed for all tasks (of bins with a finished task) over the time already spent, it is never below the elapsed time and equals it once all tasks have finished; percentage and bar are that fraction rounded down, within 0..100 and within the width. It fails with ZeroDivisionError if the finished tasks took no time at all. Times are shown in their two leading units. Under any schedule of callbacks and timer thread the sums shown belong to one moment, and the timer thread fails only if the computation has ended during its walk (which can happen) or on the division by zero. The estimate is not kept between turns: it moves although no task has finished.", "quantifier": "every graph, every history of task starts and ends, every elapsed time and width, every schedule of timer thread and callbacks", "why_tests_cant": "depends on thread schedules and on arbitrary histories and timings", "anchors": ["africanus/util/dask_util.py:EstimatingProgressBar", "africanus/util/dask_util.py:update_bar", "africanus/util/dask_util.py:timer_func", "africanus/util/dask_util.py:format_time", "africanus/util/dask_util.py:key_bin"]}
{"id": "C90", "title": "Chunked phase delays, angles, feed rotations, shapes and spectra equal the whole-array results", "statement": "The dask versions of phase_delay, gaussian shape, transform_sources, feed_rotation, parallactic_angles and WSClean spectra give, at every element, the value (or exception) of the NumPy function on the whole arrays, whatever the chunks of sources, rows, channels, times, antennas and of every dimension of the angles. A cut (l,m), (u,v,w), (emaj,emin,angle) or field-centre dimension raises ValueError; cut spectral coefficients or antenna coordinates instead silently lose the later chunks. The casa backend measures every angle at its own time and antenna whatever its measures server was told before. The jax phase delay equals the compiled one.", "quantifier": "all chunkings of all dimensions, all array contents and sizes, all feed types, conventions and backends, all earlier states of the measures server", "why_tests_cant": "tests try one or two chunkings of one array; the equality is about every chunking and every element, and silent loss only shows for chunkings tests do not use", "anchors": ["africanus/rime/dask.py:phase_delay", "africanus/rime/dask.py:parallactic_angles", "africanus/rime/dask.py:feed_rotation", "africanus/rime/dask.py:transform_sources", "africanus/model/shape/dask.py:gaussian", "africanus/model/wsclean/dask.py:spectra", "africanus/rime/jax/phase.py:phase_delay", "africanus/rime/parangles_casa.py:casa_parallactic_angles"]}
{"id": "C91", "title": "Chunked coherency conversion equals the conversion of the whole array", "statement": "Converting a dask array between polarisation schemas gives, at every leading index and output correlation, the value of the NumPy conversion of the whole array, whatever the chunks of the leading dimensions, if the input correlations are in one chunk. If they are cut, the blocks are each converted as if they started at the first correlation and the results are added: some outputs are silently wrong, others raise IndexError.", "quantifier": "all regular input and output schemas, any number of leading dimensions and any chunks of each, all values in any commutative ring", "why_tests_cant": "tests use one chunking with the correlations in one chunk; neither all chunkings nor the cut case is seen", "anchors": ["africanus/model/coherency/dask.py:convert", "africanus/model/coherency/conversion.py:convert_impl"]}
{"id": "C92", "title": "The CUDA prediction evaluates the measurement equation whatever the order of its warps", "statement": "predict_vis of the CUDA implementation gives, at every row, channel and correlation, the value of the measurement equation, hence that of the CPU implementation, for (1,), (2,) and (2,2) correlations and every combination of terms besides base visibilities alone, in whatever order the device runs the warps, whatever the output memory held and whatever shuffles return for threads that have left. Flat arrays of four correlations are multiplied as 2x2 matrices, unlike on the CPU. Base visibilities alone and other numbers of correlations with antenna terms do not compile. Index arrays that are not int32 raise TypeError.", "quantifier": "all array contents, numbers of sources, rows, channels, all index arrays within range, all orders of warps, both precisions' block shapes", "why_tests_cant": "tests run a few sizes on one device, one schedule at a time; partly filled warps and orders of blocks are not enumerated", "anchors": ["africanus/rime/cuda/predict.py:predict_vis", "africanus/rime/cuda/predict.cu.j2"]}
{"id": "C93", "title": "The CUDA phase delay and feed rotation give the CPU results for every interleaving of their threads", "statement": "Whatever the order in which the device runs the threads and whatever shared memory and output held before, the CUDA phase_delay launch ends, never gets stuck at its barrier, and leaves at every source, row and channel exp(-2 pi i nu/c (l u + m v + (n-1) w)), the value of the CPU implementation; the CUDA feed_rotation leaves the CPU matrices for angles of any shape. Nothing else is written. lm or uvw arrays that are not contiguous are read as if they were, giving other values than the CPU. Angles that are not float32 or float64 raise TypeError, unknown feed types fail while rendering.", "quantifier": "all interleavings of threads at the granularity of single writes, all initial memory contents, all sizes, coordinates and frequencies, both block shapes", "why_tests_cant": "a test observes one interleaving of a device; a missing barrier or an early return that skips a shared load shows only for some interleavings and sizes", "anchors": ["africanus/rime/cuda/phase.py:phase_delay", "africanus/rime/cuda/phase.cu.j2", "africanus/rime/cuda/feeds.py:feed_rotation", "africanus/rime/cuda/feeds.cu.j2"]}
{"id": "C94", "title": "The CUDA beam gives the CPU beam for every interleaving, for up to 1024 channels and rows that can load the extents", "statement": "Whatever the order in which the device runs the threads and whatever shared memory and output held before, the two launches of the CUDA beam_cube_dde end, never get stuck at a barrier, and leave at every source, time, antenna, channel and correlation the value of the CPU beam_cube_dde, provided there are at most 1024 channels, channels times correlations is a multiple of 32 or exceeds one by at least 4, and the threads of a warp run in step. Each proviso is needed: from channel 1024 on the frequencies are interpolated in memory never filled, with fewer than four threads in the last row the extents of the beam are not all loaded, and without lockstep a thread may use the extents before they are stored. Cubes with 128 or more planes or with a dimension below 2, and other numbers of correlations than 1, 2 and 4, raise ValueError; beams that are not complex raise TypeError.", "quantifier": "all interleavings of threads at the granularity of single writes, all initial memory contents, all cubes, extents, frequency maps (sorted or not), sources, angles, pointing errors, scalings and sizes", "why_tests_cant": "stale shared memory and races show only for some histories of the device and some interleavings; the repository's test uses few channels on one device", "anchors": ["africanus/rime/cuda/beam.py:beam_cube_dde", "africanus/rime/cuda/beam.cu.j2", "africanus/rime/cuda/beam_freq_interp.cu.j2", "africanus/rime/fast_beam_cubes.py:beam_cube_dde"]}
{"id": "C95", "title": "The CUDA conversion of polarisations agrees with the CPU conversion whenever it returns, for every schedule of its threads", "statement": "Whatever the order in which the thread groups of the launch run and whatever registers and output held before, a CUDA convert that returns has returned the shape and elements of the CPU convert of the same arguments. It returns exactly for those conversions of regular schemas accepted by the CPU whose schemas have the same number of elements, a power of two, and which turn a real array into correlations or a complex array into Stokes parameters; other CPU conversions raise ValueError (mixed kinds of output, different numbers of elements, unmapped data type), TemplatingException (not a power of two) or CompileException (real to real or complex to complex). Unknown outputs raise ValueError and outputs without inputs MissingConversionInputs.", "quantifier": "all orders of the groups, all initial memory contents, all schemas, array shapes and values, numbers of sources", "why_tests_cant": "sources are transposed across threads of a warp in blocks that do not divide every array; a test covers a few sizes and schemas on one device", "anchors": ["africanus/model/coherency/cuda/conversion.py:convert", "africanus/model/coherency/cuda/conversion.py:stokes_convert_setup", "africanus/model/coherency/cuda/conversion.cu.j2", "africanus/rime/cuda/macros.j2:warp_transpose"]}
{"id": "C96", "title": "Cached CUDA kernels: which checks an earlier call can switch off", "statement": "After every history of calls, phase_delay, feed_rotation and predict_vis of the CUDA implementation use the kernel, or raise the exception, of a first call with the same arguments; so do beam_cube_dde for cubes with two points or more along l, m and frequency, and convert for arrays whose shape ends in that of the input schema. The remaining arguments are refused by a first call only: once a call with the same types (and schemas) has generated its kernel, a smaller cube is launched, and an array of another shape is converted as if reshaped, if its size allows.", "quantifier": "all histories of calls, all argument types, shapes and schemas", "why_tests_cant": "a test makes one call, or a few, in a fresh process; the outcome depends on all calls before", "anchors": ["africanus/util/code.py:memoize_on_key", "africanus/rime/cuda/phase.py:_key_fn", "africanus/rime/cuda/feeds.py:_key_fn", "africanus/rime/cuda/predict.py:_key_fn", "africanus/rime/cuda/beam.py:_main_key_fn", "africanus/model/coherency/cuda/conversion.py:_key_fn"]}
{"id": "C97", "title": "Installing the CUDA header libraries: safe under threads, failures and crashes", "statement": "With one process at a time: when cub_dir() or trove_dir() returns, the check of the installation holds, and the directory never changes afterwards; every file in it comes from an archive with the expected hash or was there before; the lock is free after every exception and no thread is stuck. If no good archive is delivered the directory is not touched and no call returns. If the temporary directory is on the file system of the target, then the process may be killed at any step and a directory that passes the check is complete. From every state of the disk a later call can succeed. Not so with two file systems, where a kill during the copy leaves a directory without some files that the next process accepts, nor with two processes, where the second may remove the directory the first has returned or replace the archive the first has verified.", "quantifier": "all interleavings of threads, all points at which a process is killed, all failures and contents of downloads, all states of the disk at the start", "why_tests_cant": "a test installs once, in one thread, without failures; schedules, crash points and contents of the disk cannot be enumerated", "anchors": ["africanus/util/cub.py:cub_dir", "africanus/util/cub.py:_install_cub", "africanus/util/cub.py:is_cub_installed", "africanus/util/trove.py:trove_dir", "africanus/util/trove.py:_install_trove"]}
{"id": "C98", "title": "The prediction script writes the visibilities of the sky model", "statement": "MODEL_DATA of rime/examples/predict.py is, for every row, channel and correlation, the sum over all sources of the file of phase times Gaussian envelope times the correlation of the Stokes parameters scaled to the channel; with a beam, each source stands between the terms of the row's two antennas, beam times feed rotation at the antenna's parallactic angle at the time of that row. The division of the rows into chunks, the order of the sources and the contents of uninitialised memory do not matter. --invert-uvw conjugates the visibility of the exchanged correlation. The product of terms is the matrix product of the brightness terms in the order given times the others. Unknown source types, an empty sky model, other numbers of correlations than 1, 2 and 4, and a beam with fewer than four correlations or with mixed ones are refused. Beam files are read with the right axes exactly if M is the second axis.", "quantifier": "all sky models, coordinates, times, antennas, frequencies, correlation orders, beams, numbers of rows and channels, divisions of rows into chunks", "why_tests_cant": "no test runs the script; it composes ten functions whose conventions (axes, order of factors, time index local to the chunk) must agree for every input", "anchors": ["africanus/rime/examples/predict.py:predict", "africanus/rime/examples/predict.py:vis_factory", "africanus/rime/examples/predict.py:dde_factory", "africanus/rime/examples/predict.py:baseline_jones_multiply", "africanus/rime/examples/predict.py:parse_sky_model", "africanus/rime/examples/predict.py:load_beams"]}
{"id": "C99", "title": "The estimated cell size samples every baseline, and which image sizes are refused", "statement": "estimate_cell_size returns cells (in arcseconds) such that for every coordinate and every wavelength given, cell times coordinate in wavelengths is at most 1 / (2 factor), with equality for one of them: the cells are the largest that sample all baselines. An image size is refused with ValueError exactly if cell times size is smaller than the shortest wavelength over the least coordinate. The documentation states the opposite condition. A single zero coordinate raises ZeroDivisionError; an array of zeros gives an infinite cell; an array that contains a zero is refused whenever a size is given; anything but an array or a float is a TypeError.", "quantifier": "all arrays and floats of coordinates and wavelengths, scaling factors, image sizes", "why_tests_cant": "a bound over all baselines and wavelengths; the test checks one pair of literals and never the refusals", "anchors": ["africanus/gridding/util.py:estimate_cell_size"]}
{"id": "C100", "title": "Generated beam files hold the beam at the coordinates their headers declare", "statement": "For a successful beam_factory call, beam_grids reads from the header of the file: l as axis 1 and m as axis 2, from -1.5 to 1.5 degrees in equal steps, in radians, and 33 frequencies as axis 3, from the first to the last frequency given, increasing and close to the regular grid; and the data are the Westerbork beam at those frequencies and coordinates, in the order frequency, m, l. The cube is one in its centre, symmetric in l and m, falls with frequency and stays between cos(1.0881)^3 and 1. Every odd number of pixels from 3 on with a bandwidth of at least 3 Hz is accepted. Even numbers, one pixel, negative numbers, no frequencies, unknown polarisations and dtypes, and descending frequencies are refused. One channel, and the step of the frequency axis, do not work.", "quantifier": "all frequencies, numbers of pixels, schemas, random numbers", "why_tests_cant": "the tests read back one file with one draw of the random numbers; the agreement of header, jitter and data is for all draws and sizes", "anchors": ["africanus/testing/beam_factory.py:beam_factory", "africanus/util/beams.py:beam_grids", "africanus/util/beams.py:beam_filenames"]}
{"id": "C101", "title": "Predicting a FITS image: every pixel at its direction, unpolarised", "statement": "The visibilities that predict_from_fits.py computes are, for every row and channel, the sum over all pixels of the image of brightness times phase at the direction that the header gives the pixel's row and column, in XX and YY (or the one correlation); zero pixels and the chunks of rows do not matter. At frequencies that are not those of the image, the brightness lies on the line through the two neighbouring bands. Units other than degrees, a missing frequency axis, several correlations in the image and other numbers of correlations in the column than 1, 2 and 4 are refused with ValueError.", "quantifier": "all images, headers, uvw coordinates, frequencies, chunks of rows", "why_tests_cant": "no test runs the script; the claim is about all pixels of all images", "anchors": ["africanus/dft/examples/predict_from_fits.py", "africanus/dft/dask.py:im_to_vis"]}
{"id": "C102", "title": "The different routes to the same visibilities agree", "statement": "im_to_vis of an image equals predict_vis of the coherencies phase_delay times image, in either sign convention; wsclean_predict equals predict_vis of phase_delay in the casa convention times spectra times Gaussian shapes, so for points it is the conjugate of im_to_vis in its default convention; corrupt_vis equals predict_vis with the gains as direction-dependent terms (for one direction, as direction-independent terms on base visibilities), and residual_vis plus that prediction restores the visibilities; compute_and_corrupt_vis with unit gains equals im_to_vis; feed rotations by equal parallactic angles leave unpolarised sources unchanged.", "quantifier": "all images, source lists, uvw coordinates, frequencies, antennas, gains, time bins", "why_tests_cant": "tests compare single routes with fixed reference arrays; the claim relates functions of different packages for all inputs", "anchors": ["africanus/dft/kernels.py:im_to_vis", "africanus/rime/predict.py:predict_vis", "africanus/rime/phase.py:phase_delay", "africanus/rime/wsclean_predict.py", "africanus/calibration/utils/corrupt_vis.py", "africanus/calibration/utils/residual_vis.py", "africanus/calibration/utils/compute_and_corrupt_vis.py", "africanus/rime/feeds.py"]}
{"id": "C103", "title": "The in-place rebasing of the time bin indices is safe for shared and reused arrays", "statement": "The calibration functions subtract the minimum of time_bin_indices from the caller's array. However the tasks that share a chunk of the array are interleaved, each must go through exactly the rows of its time bins; and computing again with the array an earlier computation left behind must give the same visibilities.", "quantifier": "all numbers of threads, all schedules of single reads and writes, all arrays of time bins; all numbers of repeated computations, all chunks aligned with the time bins", "why_tests_cant": "the outcome depends on the interleaving of threads that run without the GIL; a test sees a few schedules and usually the first chunk or one chunk of channels, where nothing goes wrong", "anchors": ["africanus/calibration/utils/corrupt_vis.py:corrupt_vis", "africanus/calibration/utils/correct_vis.py:correct_vis", "africanus/calibration/utils/residual_vis.py:residual_vis", "africanus/calibration/utils/compute_and_corrupt_vis.py:compute_and_corrupt_vis", "africanus/calibration/phase_only/phase_only.py", "africanus/calibration/utils/dask.py"]}
{"id": "C104", "title": "The example that applies gains to a measurement set applies to each row the gains of its own time", "statement": "The output column holds, for every row, channel and correlation, the sum over the model columns of G_p M G_q^H with the gains of the row's time, whatever the number of times per chunk and the number of model columns; gains that do not fit the data are refused.", "quantifier": "all measurement sets with one field and one data description, all numbers of times per chunk, columns, correlations, gains", "why_tests_cant": "the script has no test; the claim composes the chunking of rows, of times and of gains with blockwise's own rules for all sizes", "anchors": ["africanus/calibration/utils/examples/apply_gains_to_ms.py", "africanus/calibration/utils/utils.py:chunkify_rows", "africanus/calibration/utils/dask.py:corrupt_vis"]}
{"id": "C105", "title": "The phase screen example simulates the sky seen through the screens it returns, and its calibration can explain that data", "statement": "The simulated column holds, for every row, channel and correlation, the sum over the sources of flux / n with the phase of the path and the difference of the two antennas' screens at the row's time, whatever the number of times per chunk; the returned gains are those screens; the model handed to the calibration, seen through the true gains, equals the data. The variant with gains from a file does the same with those gains. Input that does not fit is refused.", "quantifier": "all measurement sets with one field and one data description sorted by time, all sky models in the hemisphere of the phase centre, frequencies, screens, gains, chunk sizes", "why_tests_cant": "the scripts have no tests; the claim composes coordinates, spectra, chunking and two different predictions for all inputs", "anchors": ["africanus/calibration/utils/examples/apply_phase_screen_to_ms.py", "africanus/calibration/utils/examples/apply_gains_time_varying_sources.py", "africanus/calibration/utils/compute_and_corrupt_vis.py", "africanus/dft/kernels.py:im_to_vis"]}
{"id": "C106", "title": "The spectral index fitter restores the model with the clean beam of the header", "statement": "The restored model holds at every pixel and band the sum over the model pixels of their flux times the clean beam (full widths at half maximum and position angle as in the FITS header) at the distance between the two pixels: no displacement, no wrap-around from the other side, the shape of the model, whatever the padding, the fast FFT length and the FFT library.", "quantifier": "all model cubes, beam parameters, image sizes and steps, reference pixels, padding fractions, fast lengths, with and without scipy and pypocketfft", "why_tests_cant": "the script has no tests; the claim is about every image and every parity of size and padded size", "anchors": ["africanus/model/spi/examples/simple_spi_fitter.py:Gaussian2D", "africanus/model/spi/examples/simple_spi_fitter.py:convolve_model"]}
{"id": "C107", "title": "The spectral index fitter writes the fit of every bright pixel and nothing else", "statement": "Given a model cube and a residual cube, the script fits a power law to exactly the pixels whose restored spectrum is above the threshold (a multiple of the rms of the residual) in every band, with weights inversely proportional to the variance of each band and the spectra divided by the beam if there is one; the maps it writes hold index and intensity at those pixels and zero elsewhere, the reconstructed cube is the power law of the maps, nothing depends on the number of threads, every image shape is handled, and the files asked for are written next to the model or under the given name.", "quantifier": "all model and residual cubes, headers, beam parameters, thresholds, numbers of threads, padding fractions, output letters and file names", "why_tests_cant": "the script has no tests; the claim covers every image, mask and number of threads", "anchors": ["africanus/model/spi/examples/simple_spi_fitter.py:main", "africanus/model/spi/examples/simple_spi_fitter.py:create_parser", "africanus/model/spi/component_spi.py:fit_spi_components"]}
{"id": "C108", "title": "The spectral index fitter divides each source by the primary beam at its position", "statement": "Given beam images of the two parallel hands (real and imaginary parts), the script divides the spectrum of every fitted pixel by the average power of the two hands at that pixel's coordinates and band frequencies, interpolated linearly: at a pixel of the beam image the sample itself, with l along the columns and m along the rows; the files are found wherever they are kept, and beams whose axes run either way are accepted.", "quantifier": "all beam images, headers, file names and directories, orders of the files, positions and frequencies of the sources", "why_tests_cant": "the script has no tests; the claim covers every position, image size and path", "anchors": ["africanus/model/spi/examples/simple_spi_fitter.py:interpolate_beam", "africanus/rime/fast_beam_cubes.py:beam_cube_dde"]}
{"id": "C109", "title": "The generated phase-only gains are drawn from the stated Gaussian process", "statement": "The script that simulates phase-only gains writes gains of modulus one for every time, antenna, channel, source and two correlations, whose phases are jointly Gaussian with covariance the product of squared-exponential covariances of time, frequency and distance on the sky; different antennas and correlations are independent; any measurement set and sky model with several times, channels and sources is accepted.", "quantifier": "all times, antennas, frequencies, sources, random numbers", "why_tests_cant": "the script has no tests; the covariance concerns every pair of gains and all random numbers", "anchors": ["africanus/gps/examples/generate_phase_only_gains.py", "africanus/gps/kernels.py:exponential_squared", "africanus/linalg/kronecker_tools.py:kron_cholesky", "africanus/linalg/kronecker_tools.py:kron_matvec"]}
{"id": "C110", "title": "Compiling CUDA sources leaves the process as it was and uses the requested options", "statement": "compile_using_nvcc compiles a CUDA source with nvcc for the requested architecture with the given options and returns the loaded module, or raises a CompileError with the messages of the compiler.  Whatever happens, temporary directories are removed, stderr is restored, the compiler object keeps its command, the caller's options are not changed and no file descriptors are used up.  The CUDA directory is the one of CUDA_PATH, else that of nvcc on PATH, else /usr/local/cuda, and does not change during a process.  NVCC names another compiler.  The hint of nvcc about a host compiler is found in its messages.", "quantifier": "all sequences of calls, environments, outcomes of the programs that are run", "why_tests_cant": "the only test needs a graphics card; state is shared by all calls of a process, and each call can fail at many points", "anchors": ["africanus/util/nvcc.py:compile_using_nvcc", "africanus/util/nvcc.py:get_cuda_path", "africanus/util/nvcc.py:get_nvcc_path", "africanus/util/nvcc.py:get_cuda_info", "africanus/util/nvcc.py:_match_output_lines", "africanus/util/nvcc.py:stdchannel_redirected", "africanus/util/nvcc.py:_UnixCCompiler"]}
{"id": "C111", "title": "Results have the precision of their inputs, and the dask arrays the type they say they have", "statement": "The complex type inferred for arrays is double precision exactly when an input needs it, whatever the order and the kind of arrays.  The dtype attribute of a dask result is the dtype of what compute() returns, and that is the dtype that the function without dask returns for the same inputs.  The CUDA forms return the types of the CPU forms.  The name of a type in a CUDA kernel is the C type of the same size and kind.", "quantifier": "all numeric types of all arguments, all combinations of optional arguments, any number and order of arguments for the inference", "why_tests_cant": "the combinations of types of up to seven arrays, present or absent, are too many, and a wrong declared type is only seen by code that trusts it", "anchors": ["africanus/util/type_inference.py:infer_complex_dtype", "africanus/util/cuda.py:cuda_type,cuda_function", "africanus/rime/dask.py", "africanus/rime/dask_predict.py:predict_vis,wsclean_predict", "africanus/rime/predict.py:predict_vis", "africanus/rime/cuda/predict.py:_generate_kernel", "africanus/rime/cuda/phase.py:_generate_kernel", "africanus/model/spectral/dask.py:spectral_model", "africanus/model/wsclean/dask.py:spectra", "africanus/calibration/utils/dask.py", "africanus/calibration/phase_only/dask.py", "africanus/dft/kernels.py", "africanus/dft/dask.py", "africanus/gridding/wgridder/dask.py"]}
{"id": "C112", "title": "Areas, default masks and centres of hulls", "statement": "The area and circumference of a convex hull or box are those of its polygon, widened by half a pixel, whatever the first corner, the direction around it, its place and the order of the axes; for a box the area is the number of its pixels, and the areas of the boxes that SplitBox returns add up to that of the box.  The default mask has every pixel inside exactly once, and a mask that is set keeps exactly the pixels inside.  The normals are perpendicular to their edges and those on the right point inwards.  The midpoints of the edges are not outside.  The centre is the mean of the points, truncated.", "quantifier": "all hulls with integer corners, of any size, number and position of corners; all boxes; all masks", "why_tests_cant": "polygons are unbounded in number and size, and pixels on the boundary are where such code goes wrong", "anchors": ["africanus/linalg/geometry.py:BoundingConvexHull.area,circumference,init_mask,sparse_mask,lnormals,rnormals,edge_midpoints,centre,BoundingBox"]}
{"id": "C113", "title": "Rounding errors of predicted visibilities are bounded", "statement": "With every operation rounded with a relative error of at most u, each predicted visibility differs from the exact measurement equation by at most gamma(number of sources + 13) times the same equation evaluated on the sizes of the entries, where gamma(n) <= n u / (1 - n u); computed in chunks, streamed under any schedule or summed over any tree, the bound gains one operation per source chunk.  u is 2^-53 for complex128 and 2^-24 for complex64.", "quantifier": "all terms, shapes, numbers of sources, chunkings, schedules and reduction trees, and all roundings with that relative error", "why_tests_cant": "tests compare with a tolerance on a few random arrays; the error grows with the number of sources and depends on the values", "anchors": ["africanus/rime/predict.py:predict_vis,jones_mul_factory,sum_coherencies_factory,apply_dies_factory", "africanus/rime/dask_predict.py:predict_vis,linear_reduction"]}
{"id": "C114", "title": "Rounding errors of averages are bounded", "statement": "With every operation rounded with a relative error of at most u: an averaged time, frequency, coordinate or time centroid of k samples is their mean up to gamma(k+1) times the mean of their sizes; summed intervals, exposures and weights are exact up to gamma(k) times the sum of the sizes; an averaged visibility, for weights that are not negative, is the weighted mean up to about gamma(2k+2) times the weighted mean of the sizes; and no time bin is longer than requested by more than a few roundings of the largest time.  An output cell made of a single unweighted sample is that sample.", "quantifier": "all tables, flags, weights and bin sizes, and all roundings with that relative error", "why_tests_cant": "tests compare with a tolerance on a few tables; the error depends on the sizes of bins and values, and bin boundaries are decided by rounded comparisons", "anchors": ["africanus/averaging/time_and_channel_mapping.py:row_mapper", "africanus/averaging/time_and_channel_avg.py:row_average,row_chan_average,chan_average"]}
{"id": "C115", "title": "Rounding errors of phase delays and direct Fourier transforms are bounded", "statement": "With every operation rounded with a relative error of at most u, and cosines and sines with an absolute error of at most e: each phase delay of a source above the horizon is exp(-+ 2 pi i f (lu + mv + (n-1)w) / c) up to e plus the error of the phase, which is about 8u times the sizes of the three products plus 8u |w| / n, times 2 pi f / c.  For baselines up to 10 km, frequencies up to 2 GHz and a field of 0.1 that is at most 1e-8 in double precision.  Visibilities of an image, and the image of visibilities, are the exact transforms up to the sum of these errors, and gamma(number of terms + 2), times the sizes of the terms.", "quantifier": "all coordinates, frequencies, images, visibilities, flags, both sign conventions, and all roundings with these errors", "why_tests_cant": "tests compare a few arrays with another implementation to a tolerance; the error depends on the baseline, the frequency and the distance to the horizon", "anchors": ["africanus/rime/phase.py:phase_delay", "africanus/dft/kernels.py:im_to_vis,vis_to_im", "africanus/constants/consts.py:two_pi_over_c"]}
{"id": "C116", "title": "Hogbom CLEAN converges", "statement": "If the dirty image is the response of some sky through a symmetric point spread function with centre a, and 0 <= gamma a <= 2, every cycle with peak v brings the components closer to the sky, in the norm of the point spread function, by gamma (2 - gamma a) v^2.  So no run ends further from the sky than it began, its residual is the response of what the components have not explained, and, when no response points away from its image, the run ends with its largest residual within the threshold as soon as niter + 1 exceeds <sky, dirty> / (gamma (2 - gamma a) thr^2).  Point spread functions of interferometers with weights that are not negative are of this kind.", "quantifier": "all image sizes, skies, point spread functions of this kind, gains, thresholds and iteration limits", "why_tests_cant": "tests run one image for a fixed number of iterations; convergence is about all images and the number of cycles", "anchors": ["africanus/deconv/hogbom/clean.py:hogbom_clean,find_peak,build_cleanmap,update_residual"]}
{"id": "C117", "title": "Averaging in two steps is averaging in one", "statement": "For data with weight spectra that are not negative, averaging and then averaging the result again gives the flags, weights, visibilities and sigmas of averaging once into the final bins; it also succeeds whenever both steps do.  In particular averaging channels by a and then by b is averaging them by a b; widths, effective bandwidths and resolutions agree as well, and frequencies when the first step leaves no shorter bin.", "quantifier": "all data, flags, row flags, maps of rows and channels into bins, bin sizes and numbers of channels", "why_tests_cant": "tests average a few data sets once and compare with a reference; the composition is about all pairs of bin maps", "anchors": ["africanus/averaging/time_and_channel_avg.py:row_chan_average,chan_average", "africanus/averaging/time_and_channel_mapping.py:channel_mapper"]}
{"id": "C118", "title": "Images made by direct transforms can be deconvolved", "statement": "For baselines in a plane (w = 0), the image that vis_to_im makes of the visibilities that im_to_vis gives for a sky on a regular grid of directions is, in every channel and correlation, the convolution of the sky with the point spread function, which is the image of unit visibilities, with the same flags, on a grid of twice the size with direction (0, 0) at pixel (n - 1, n - 1).  The point spread function is symmetric and positive and its centre is the number of rows used.  hogbom_clean of both images divided by that number, with a gain of at most 2, never ends further from the sky than it began, and reaches its threshold when niter is large enough.", "quantifier": "all skies, grids, baselines in a plane, frequencies, flags, both sign conventions, gains, thresholds and iteration limits", "why_tests_cant": "tests check the transforms and the deconvolution apart, on one image each; that they fit together is about all of them", "anchors": ["africanus/dft/kernels.py:im_to_vis,vis_to_im", "africanus/deconv/hogbom/clean.py:hogbom_clean"]}
{"id": "C119", "title": "Phase-only calibration in one direction converges", "statement": "gauss_newton with one direction, initial gains that are pure phases and data at most as large as the model on the unflagged rows returns pure phases that fit the data at least as well as the initial ones.  If J^H J is at least Jmin > 0 for every gain, each iteration but the last lowers the sum of the weighted squared residuals by at least 2 Jmin tol^2, so for every data set there is a maxiter with which the solver stops earlier, at gains where |re(J^H r)| <= 2 tol J^H J.", "quantifier": "all data, models, weights, flags, time bins, antennas, channels, correlations, tolerances between 0 and 1 and iteration limits", "why_tests_cant": "tests solve one simulated data set that starts near the solution; the fit must not get worse for any data and start", "anchors": ["africanus/calibration/phase_only/phase_only.py:gauss_newton,compute_jhj,compute_jhr"]}
{"id": "C120", "title": "Rounding errors of corrupted and residual visibilities are bounded", "statement": "In floating point with relative error u per operation, every visibility of corrupt_vis differs from the exact sum over directions of G_p M G_q^H by at most ((1+u)^(directions+7) - 1) times the same sum evaluated on the sizes of the entries; residual_vis likewise, with the size of the visibility added.  Corrupting a model and subtracting it again leaves at most about three times that.", "quantifier": "all gains, models, visibilities, flags, polarisation modes, numbers of directions, time bins, and all roundings with relative error at most u, among them complex128 and complex64 without overflow or underflow", "why_tests_cant": "tests compare a few random arrays with a tolerance chosen by hand; the bound must hold for every input", "anchors": ["africanus/calibration/utils/corrupt_vis.py:corrupt_vis", "africanus/calibration/utils/residual_vis.py:residual_vis"]}
{"id": "C121", "title": "CLEAN finds isolated sources", "statement": "If the dirty image is the response to K sources that are not negative, the point spread function is one at its centre and at most mu elsewhere with 2 mu K < 1 + mu, and the gain is at most (1 + mu - 2 mu K) / ((1 - mu)(1 + mu - mu K)), then hogbom_clean puts no component where there is no source and none above the flux of its source; when the limit on the cycles allows it, every source is found to within the threshold divided by 1 + mu - mu K.  For one source and gain 1 the components are the sky and the residual is zero.", "quantifier": "all image sizes, skies, point spread functions, gains, thresholds and iteration limits", "why_tests_cant": "tests clean one simulated image; which pixel a cycle picks depends on all earlier cycles, and the claim is about every cycle of every run", "anchors": ["africanus/deconv/hogbom/clean.py:hogbom_clean,find_peak,build_cleanmap,update_residual"]}
{"id": "C122", "title": "CLEAN conserves the image up to rounding", "statement": "With every operation rounded, hogbom_clean on machine numbers that are not all negative, with a point spread function that is one at its centre and a gain of at most one, returns components that are not negative, and the residual plus the components convolved with the point spread function differs from the dirty image by at most a bound on niter + 1 cycles times the dirty pixel and the components convolved with the absolute point spread function.  In double precision and fewer than a million cycles that is one part in 10^9.  The residual is again an image of machine numbers that are not all negative.", "quantifier": "all rounding modes, image sizes, images, point spread functions, gains, thresholds and iteration limits", "why_tests_cant": "tests compare one image with a tolerance; rounding decides which pixel the next cycle picks, so the error must be bounded for every run", "anchors": ["africanus/deconv/hogbom/clean.py:hogbom_clean,build_cleanmap,update_residual"]}
{"id": "C123", "title": "Sources imaged by an interferometer are found by CLEAN", "statement": "The visibilities that im_to_vis gives for K sources that are not negative, imaged by vis_to_im with baselines in a plane and divided by the number of rows used, are deconvolved by hogbom_clean into components on the sources only, none larger than its source, and with enough cycles every source is found to within the threshold, if the point spread function (the image of unit visibilities) has small enough sidelobes.  With n * n baselines that sample each spatial frequency of an (n, n) image once, the image is n * n times the sky for every sky, the sidelobes are zero, and CLEAN finds every sky that is not negative.", "quantifier": "all image sizes, pixel sizes, baselines in a plane, frequencies, flags, skies, gains, thresholds and iteration limits", "why_tests_cant": "tests transform and clean single examples separately; the claim is about the composition of three functions for every baseline layout and sky", "anchors": ["africanus/dft/kernels.py:im_to_vis,vis_to_im", "africanus/deconv/hogbom/clean.py:hogbom_clean"]}
{"id": "C124", "title": "Rounding errors of Stokes conversion", "statement": "With rounded arithmetic convert gives each correlation of Stokes parameters, and each Stokes parameter of any four correlations, as the exact value rounded once.  Stokes parameters converted to linear correlations and back give U and V exactly and I and Q to within two roundings of the larger of the two; with circular correlations Q and U are exact and I and V have the error.", "quantifier": "all schemas, array shapes, Stokes parameters, correlations and symmetric binary roundings, double precision among them", "why_tests_cant": "tests compare a few random arrays with a tolerance; the claim bounds the error for every value and says which parameters have none", "anchors": ["africanus/model/coherency/conversion.py:convert,stokes_conv"]}
{"id": "C125", "title": "CLEAN of noisy images finds sources and no noise", "statement": "If every pixel of the dirty image is within eps of the response of K sources that are not negative, the sidelobes and the gain are small enough and the threshold is far enough above eps, then hogbom_clean puts components on sources only, none larger than its source, and with enough cycles every source is found to within threshold and noise.  Errors of at most eps of the visibilities become errors of at most eps of the image that vis_to_im gives, divided by the number of rows used, so the same holds for sources observed with noise, imaged and deconvolved.", "quantifier": "all image sizes, point spread functions, skies, bounded errors of pixels or visibilities, gains, thresholds, iteration limits, flags and baselines in a plane", "why_tests_cant": "tests deconvolve single images without noise; the claim is about every error within the bound and every cycle of a run", "anchors": ["africanus/deconv/hogbom/clean.py:hogbom_clean", "africanus/dft/kernels.py:vis_to_im,im_to_vis"]}
{"id": "C126", "title": "Docstring templates and file digests", "statement": "Substituting values into a docstring template gives the text with every $name and $(name) replaced by its value and $$ by a dollar, a KeyError if a name has no value, and a ValueError if the text is no template.  Replacing in documentation replaces every occurrence from left to right and nothing else.  The digest of a downloaded archive is the digest of its contents, whatever the block size and however many bytes each read returns.", "quantifier": "all templates, names, values, search strings, documentation tuples, file contents, block sizes and sequences of partial reads, for every hash that can be fed in pieces", "why_tests_cant": "the docstrings are built when the package is imported and only the present texts are tried; files of every size and every sequence of reads cannot be", "anchors": ["africanus/util/docs.py:DocstringTemplate,mod_docs,doc_tuple_to_str", "africanus/util/files.py:sha_hash_file"]}
{"id": "C127", "title": "Rounding errors of gridding are bounded", "statement": "Gridding with rounded arithmetic gives in every cell of every band the sum of the visibilities times their kernel values up to a relative error of n+2 roundings of the sum of the sizes of these terms, n the number of visibilities; the weights have the corresponding bound, and a grid divided by its weight differs from the exact gridder's grid by a stated multiple of the weighted mean size, less than one millionth in double precision for up to two thousand million visibilities.  Packed and unpacked kernels give the same rounded numbers.  The grid may depend on the order of the rows.", "quantifier": "all rounding functions with a relative error, kernels, supports, oversamplings, grids, coordinates, numbers of rows and channels, channel maps and visibilities; non-negative kernels for the normalised grids", "why_tests_cant": "a test compares a few grids with tolerances that it chooses; the error bound has to hold for every set of visibilities and its growth with their number cannot be sampled", "anchors": ["africanus/gridding/perleypolyhedron/gridder.py:gridder", "africanus/gridding/perleypolyhedron/policies/convolution_policies.py:convolve_1d_axisymmetric_unpacked_scatter,convolve_1d_axisymmetric_packed_scatter"]}
{"id": "C128", "title": "Rounding errors of degridding are bounded", "statement": "A visibility degridded with rounded arithmetic differs in every correlation from the exact one by at most a stated multiple of the weighted mean size of the cells under the kernel; the multiple depends only on the rounding unit and the support of the kernel.  In double precision, for supports of up to 63 cells, it is less than 1e-11 times the largest cell.  Packed and unpacked kernels give the same rounded numbers.", "quantifier": "all rounding functions with a relative error, non-negative kernels, odd supports, oversamplings, grids, coordinates, Stokes parameters and correlation layouts", "why_tests_cant": "a test compares some visibilities with a tolerance that it chooses; that no grid, coordinate or kernel does worse cannot be sampled", "anchors": ["africanus/gridding/perleypolyhedron/policies/convolution_policies.py:convolve_1d_axisymmetric_packed_gather,convolve_1d_axisymmetric_unpacked_gather", "africanus/gridding/perleypolyhedron/degridder.py:degridder"]}
