# Design

Formal model of codex-africanus (source in /repo, read as text, never run) in Coq 8.16.1.  The properties are in `properties.jsonl`, the theorems for each in `MANIFEST.json`, the wrong programs tried in `seeded/LOG.jsonl`.

## Conventions

* `theories/<Area>Model.v` transcribes the code function by function; every definition cites file and lines and says what it simplifies.
* `theories/<Area>Spec.v` holds the independent vocabulary of the theorem statements.
* `theories/<Area>Proofs*.v` hold the proofs.
* `theories/<Area>Props*.v` hold the property theorems, each followed by `Print Assumptions`, and examples showing that the hypotheses are met by a concrete non-trivial case.
* `Prelude.v` (exceptions as values, loops, arrays), `CRing.v`/`CField.v` (abstract rings and fields with conjugation), `CplxR.v`/`CplxF.v` (their complex instances), `QcArith.v` (exact rationals) are shared.
* Exceptions are values.  Numpy arrays are functions from indices plus explicit sizes, or lists where bounds matter.
* Where the code violates what a user would expect, the theorem is named `..._refuted` and shows a witness; what does hold is proved next to it.  A theorem that covers only part of a property is named `..._partial`.

## Trusted base

1. Coq's kernel (8.16.1), including the bytecode machine behind `vm_compute`, and the parsing of the statements.
2. The axioms of Coq's standard library listed below per theorem, and no others: `ClassicalDedekindReals.sig_forall_dec`, `ClassicalDedekindReals.sig_not_dec` and `FunctionalExtensionality.functional_extensionality_dep` (they come with the real numbers of the standard library) and `Classical_Prop.classic` (used by its trigonometric and limit lemmas).  No axiom, parameter or section-less variable is declared in this development.  No functor or module type is defined.
3. That the model is the code.  Nothing connects the two mechanically: each definition cites the lines it transcribes.
4. What is deliberately idealised:
   * Numbers.  Real-valued code is modelled with exact real, complex or rational numbers, or with abstract operations without laws (averaging: those theorems hold for rounded arithmetic too) or with an abstract ring or field.  Rounding, overflow, NaN, infinities and dtypes are not modelled unless a definition says so (rounding: RoundModel.v for predict_vis, RavgModel.v for averaging, RdftModel.v for phase delays and direct transforms; dtypes: DtypeModel.v).
   * Arrays are total functions; where an index outside the array matters (unchecked reads in compiled code) the model makes it explicit, either as an exception, as an unknown value or as the neighbouring memory.
   * Libraries.  numpy, numba, dask, scipy, ducc, nifty_gridder, casacore, astropy and Python's own `float` and `ast` are modelled only by what the code needs of them: a dask graph is a set of tasks evaluated in dependency order and every block gets the blocks of its indices, numpy's sorting and broadcasting are transcribed, and the gridding libraries are unknown functions with stated hypotheses (linearity, adjointness), each with a concrete instance that meets them.
   * Threads.  Where schedules matter (singletons, memoisation, parallel loops, task graphs, the progress bar) the model is a step relation over interleavings; Python's bytecode steps are taken as atomic.

## What is modelled

| model file | code in /repo/africanus | left out of those files |
|---|---|---|
| AvgModel, AvgModel2, NumpyModel | averaging/support.py, time_and_channel_mapping.py, time_and_channel_avg.py | numba overload selection |
| DaskAvgModel | averaging/dask.py | names of graph layers |
| SplineModel | averaging/splines.py | - |
| UtilModel | util/shapes.py, code.py (SingletonMixin, memoize_on_key), requirements.py, cuda.py (grids), jinja2.py (register_assign_cycles), rime/cuda/macros.j2 (warp_transpose) | the remaining template filters, format_code, cuda_type tables |
| PredictModel, DaskPredictModel | rime/predict.py, rime/dask_predict.py | docstring handling |
| RimeModel | rime/phase.py, feeds.py, transform.py, parangles.py | parangles_casa.py (in DaskRimeModel.v), parangles_astropy.py (a parameter) |
| BeamModel | rime/fast_beam_cubes.py, rime/dask.py (beam_cube_dde) | - |
| ZernModel | rime/zernike.py, rime/dask.py (zernike_dde) | - |
| SrcModel | model/shape/gaussian_shape.py, model/wsclean/spec_model.py, model/spectral/spec_model.py and dask.py, rime/wsclean_predict.py and its dask wrapper | - |
| LoadModel | model/wsclean/file_model.py | opening the file |
| SpiModel | model/spi/component_spi.py, model/spi/dask.py | the warning at the iteration limit |
| CohModel | model/coherency/conversion.py, util/casa_types.py | - |
| CalModel, Cal2Model | calibration/utils/{utils,corrupt_vis,correct_vis,residual_vis,compute_and_corrupt_vis,dask}.py, calibration/phase_only/{phase_only,dask}.py | - |
| CoordModel | coordinates/coordinates.py, coordinates/dask.py | - |
| DftModel | dft/kernels.py, dft/dask.py | - |
| HogModel | deconv/hogbom/clean.py | logging |
| KronModel | linalg/kronecker_tools.py | - |
| GeomModel | linalg/geometry.py | plotting helpers |
| GridModel, StokesGridModel, FacetModel, KernModel | gridding/perleypolyhedron/{gridder,degridder,dask,kernels}.py and policies/*.py | kbsinc (Bessel functions), default beta fits |
| NiftyModel | gridding/nifty/dask.py | pickling of the gridder configuration |
| WgridModel | gridding/wgridder/{vis2im,im2vis,im2residim,hessian,dask}.py | - |
| GpsModel | gps/utils.py, gps/kernels.py | - |
| CmdModel | util/cmdline.py | ast.parse |
| AxesModel | util/beams.py | reading FITS files |
| BarModel.v | util/dask_util.py | writing to the terminal, the clock (times are given), `daemon` attribute |
| DaskRimeModel.v | rime/dask.py (phase_delay, parallactic_angles, feed_rotation, transform_sources), model/shape/dask.py, model/wsclean/dask.py, model/coherency/dask.py, rime/jax/phase.py, rime/parangles_casa.py | dtypes, rechunking done by dask, correlation dimensions of stokes in WSClean spectra, the measures library and astropy (parameters) |
| CudaPredictModel.v | rime/cuda/predict.py, predict.cu.j2 | floating point, the compiler (which rendered kernels compile is decided by reading the template), the lane mask of the shuffles, arrays whose sizes do not agree |
| CudaModel.v, CudaRimeModel.v | rime/cuda/phase.py, phase.cu.j2, feeds.py, feeds.cu.j2 | the compiler, rounding, memory ordering weaker than atomic writes, int overflow, negative strides |
| CudaBeamModel.v | rime/cuda/beam.py, beam.cu.j2, beam_freq_interp.cu.j2 | the compiler, rounding, faults of reads outside an array, arrays that are not contiguous; the cache of generated kernels is in CudaMemoModel.v |
| CudaCohModel.v | model/coherency/cuda/conversion.py, conversion.cu.j2 | the compiler, rounding, wrap around of integer inputs, the mask of the shuffles; the cache of generated kernels is in CudaMemoModel.v |
| CudaMemoModel.v | util/code.py memoize_on_key (sequentially; UtilModel.v has the threads), the key functions and generators of rime/cuda/*.py and model/coherency/cuda/conversion.py | the text of the rendered templates, cupy, keys that cannot be hashed or that are equal without being identical (1 and True) |
| InstallModel.v | util/cub.py, util/trove.py | SHA1 itself (a predicate on archives), the texts of messages, logging, other programs that change the files, makedirs of the download directory |
| PipeModel.v | rime/examples/predict.py | Tigger, dask-ms, astropy's parallactic angles (an argument), the reading of FITS headers except the order of axes, chunks of sources (C28), progress bar |
| CellModel.v | gridding/util.py | rounding, overflow, the sign of zero, arrays that contain NaN |
| BeamFactoryModel.v | testing/beam_factory.py | the FITS format, astropy's own cards, comments, OVERWRITE, rounding; the random numbers are an argument |
| FitsPredictModel.v | dft/examples/predict_from_fits.py | reading and writing of files, absent header cards, the interpolator between its own l and m, rounding |
| RebaseModel.v | time_bin_indices -= time_bin_indices.min() and the loops over rows in calibration/utils and calibration/phase_only, run by several threads on one array | vectorised or reordered accesses in the compiled code, the arithmetic on visibilities during a race, what reading a negative row does |
| ApplyGainsModel.v | calibration/utils/examples/apply_gains_to_ms.py | several fields or data descriptions, dask-ms and the writing, the cast to complex64, the thread pool, empty measurement sets |
| ScreenModel.v | calibration/utils/examples/apply_phase_screen_to_ms.py, apply_gains_time_varying_sources.py | several fields, dask-ms and the writing, declared dtypes, the random numbers (an argument), what the solver does with the residual (C43) |
| RestoreModel.v, FftFacts.v | model/spi/examples/simple_spi_fitter.py:12-113 | rounding, the FFT algorithms (modelled by the sums they compute), the value of next_fast_len (any function that does not shrink), the global args in ifft, threads |
| FitterModel.v | model/spi/examples/simple_spi_fitter.py:253-482 | missing cards of the model image, residuals of another shape, the interpolation of the beam (an argument), the cards written, printing, rounding |
| FitBeamModel.v | model/spi/examples/simple_spi_fitter.py:116-202 | astropy and glob (arguments), images of different shapes, the warning about the bandwidth, rounding |
| GpGainsModel.v | gps/examples/generate_phase_only_gains.py:29-76 | files and command line, several spectral windows, rounding; times are integers |
| NvccModel.v | util/nvcc.py on Linux, with distutils CCompiler.compile and UnixCCompiler._compile | Windows and Darwin, texts of messages, failures of rmtree and mkpath; regular expressions are functions |
| DtypeModel.v | util/type_inference.py; util/cuda.py (types and functions); the dtypes of rime/dask.py, rime/dask_predict.py, rime/predict.py, rime/wsclean_predict.py, model/spectral, model/wsclean, model/shape, model/spi, calibration, dft, gridding/wgridder, and of rime/cuda/{phase,feeds,predict,beam}.py | coherency conversion, averaging, nifty and Perley gridders; result_type follows NumPy before 1.20 for integers in front of floats |
| HullModel.v | linalg/geometry.py:33-64 (corners), 76-97, 111-133, 337-356, 366-409, 444-454, 489-495 | scipy's ConvexHull (argument), corners that are not integers, rounding |
| RoundModel.v | the arithmetic of rime/predict.py:91-179, for PredictModel.v and DaskPredictModel.v | overflow, underflow, NaN, fused multiply-add, the rounding of the inputs |
| RavgModel.v | the arithmetic of averaging/time_and_channel_mapping.py:198-290 and averaging/time_and_channel_avg.py:88-149, 183-307, 671-688, for AvgModel.v and AvgModel2.v | overflow, underflow, NaN, the conversion of counts above 2^53 |
| RdftModel.v | rime/phase.py:19-50 and dft/kernels.py:27-60, 94-130 with rounding | overflow, underflow, mixed precisions, the shape check (in DftModel.v) |
| RhogModel.v | deconv/hogbom/clean.py:103-188 with rounding | overflow, underflow, NaN, single precision images cleaned with double precision gains |
| RcohModel.v | the arithmetic of model/coherency/conversion.py:14-36, for CohModel.v | overflow, underflow, NaN |
| DocsModel.v | util/docs.py:15-33, 46-59, util/files.py:7-16 | characters outside ASCII, names with Unicode letters, SHA itself (a state machine) |
| RgridModel.v | gridding/perleypolyhedron/policies/convolution_policies.py:6-112 and gridder.py:84-116 with rounding | rounding of coordinates, Stokes conversion and placement, overflow, underflow, NaN |
| RdegridModel.v | gridding/perleypolyhedron/policies/convolution_policies.py:148-257 with rounding | rounding of coordinates and placement, the phase rotation afterwards, overflow, underflow, NaN |

## What is not modelled

* CUDA: the compiler and the device; which kernels are modelled is in the table above.
* The values computed by astropy and casacore: rime/parangles_astropy.py is a parameter, and so is the position angle that parangles_casa.py asks the measures server for.
* Tests, and the example scripts (*/examples/*.py) that are not in the table.
* Package plumbing: __init__.py files, conftest.py, setup.py, docs/conf.py, util/appdirs.py, jax_init.py, numba.py, the texts of the docstrings.

## Plan per property: what is modelled and how it is proved

* **C01 Unique-with-inverse is a faithful factorisation** (proved) - AvgModel.v, AvgModel2.v.  Executable model of the row mapper, channel mapper and averaging loops: arrays are functions from indices, loops are folds in program order, exceptions are values.  Arithmetic is an abstract record of operations, so the mapping theorems hold for float arithmetic as well; exact rationals instantiate it in the examples.  Proof by loop invariants over the row, time and baseline loops.
* **C02 Row map is total, in range and onto** (proved) - AvgModel.v, AvgModel2.v.  Executable model of the row mapper, channel mapper and averaging loops: arrays are functions from indices, loops are folds in program order, exceptions are values.  Arithmetic is an abstract record of operations, so the mapping theorems hold for float arithmetic as well; exact rationals instantiate it in the examples.  Proof by loop invariants over the row, time and baseline loops.
* **C03 Duplicate time/baseline rows are rejected** (proved) - AvgModel.v, AvgModel2.v.  Executable model of the row mapper, channel mapper and averaging loops: arrays are functions from indices, loops are folds in program order, exceptions are values.  Arithmetic is an abstract record of operations, so the mapping theorems hold for float arithmetic as well; exact rationals instantiate it in the examples.  Proof by loop invariants over the row, time and baseline loops.
* **C04 Averaging never mixes baselines and bins are time-contiguous** (proved) - AvgModel.v, AvgModel2.v.  Executable model of the row mapper, channel mapper and averaging loops: arrays are functions from indices, loops are folds in program order, exceptions are values.  Arithmetic is an abstract record of operations, so the mapping theorems hold for float arithmetic as well; exact rationals instantiate it in the examples.  Proof by loop invariants over the row, time and baseline loops.
* **C05 Output rows are time ordered** (proved) - AvgModel.v, AvgModel2.v.  Executable model of the row mapper, channel mapper and averaging loops: arrays are functions from indices, loops are folds in program order, exceptions are values.  Arithmetic is an abstract record of operations, so the mapping theorems hold for float arithmetic as well; exact rationals instantiate it in the examples.  Proof by loop invariants over the row, time and baseline loops.
* **C06 Row times are bin means and intervals are bin sums** (proved) - AvgModel.v, AvgModel2.v.  Executable model of the row mapper, channel mapper and averaging loops: arrays are functions from indices, loops are folds in program order, exceptions are values.  Arithmetic is an abstract record of operations, so the mapping theorems hold for float arithmetic as well; exact rationals instantiate it in the examples.  Proof by loop invariants over the row, time and baseline loops.
* **C07 Output row flag iff all contributing rows flagged** (proved) - AvgModel.v, AvgModel2.v.  Executable model of the row mapper, channel mapper and averaging loops: arrays are functions from indices, loops are folds in program order, exceptions are values.  Arithmetic is an abstract record of operations, so the mapping theorems hold for float arithmetic as well; exact rationals instantiate it in the examples.  Proof by loop invariants over the row, time and baseline loops.
* **C08 A time bin never exceeds the requested number of seconds** (proved) - AvgModel.v, AvgModel2.v.  Executable model of the row mapper, channel mapper and averaging loops: arrays are functions from indices, loops are folds in program order, exceptions are values.  Arithmetic is an abstract record of operations, so the mapping theorems hold for float arithmetic as well; exact rationals instantiate it in the examples.  Proof by loop invariants over the row, time and baseline loops.
* **C09 Time bins are filled greedily** (partial) - AvgModel.v.  Partial: filling bins greedily is false of the code (C09_greedy_refuted).  C09_bin_opening_rule_partial and C79 state the rule the code follows; what is missing is the greedy rule itself, which no proof can supply.
* **C10 Channel map partitions the band** (proved) - AvgModel.v, AvgModel2.v.  Executable model of the row mapper, channel mapper and averaging loops: arrays are functions from indices, loops are folds in program order, exceptions are values.  Arithmetic is an abstract record of operations, so the mapping theorems hold for float arithmetic as well; exact rationals instantiate it in the examples.  Proof by loop invariants over the row, time and baseline loops.
* **C11 Row averaging is the documented weighted reduction** (proved) - AvgModel.v, AvgModel2.v.  Executable model of the row mapper, channel mapper and averaging loops: arrays are functions from indices, loops are folds in program order, exceptions are values.  Arithmetic is an abstract record of operations, so the mapping theorems hold for float arithmetic as well; exact rationals instantiate it in the examples.  Proof by loop invariants over the row, time and baseline loops.
* **C12 Row/channel averaging is the documented weighted mean** (proved) - AvgModel.v, AvgModel2.v.  Executable model of the row mapper, channel mapper and averaging loops: arrays are functions from indices, loops are folds in program order, exceptions are values.  Arithmetic is an abstract record of operations, so the mapping theorems hold for float arithmetic as well; exact rationals instantiate it in the examples.  Proof by loop invariants over the row, time and baseline loops.
* **C13 Averaged cell flag iff all contributing samples flagged** (proved) - AvgModel.v, AvgModel2.v.  Executable model of the row mapper, channel mapper and averaging loops: arrays are functions from indices, loops are folds in program order, exceptions are values.  Arithmetic is an abstract record of operations, so the mapping theorems hold for float arithmetic as well; exact rationals instantiate it in the examples.  Proof by loop invariants over the row, time and baseline loops.
* **C14 Weighted visibility is conserved** (proved) - AvgModel2.v.  Needs laws of arithmetic: stated for operations forming a field (exact numbers).  Sums over output cells are regrouped by induction over rows and channels.
* **C15 Channel metadata averaging conserves bandwidth** (proved) - AvgModel2.v.  Needs laws of arithmetic: stated for operations forming a field (exact numbers).  Sums over output cells are regrouped by induction over rows and channels.
* **C16 Merging row flags and cell flags** (proved) - AvgModel.v, AvgModel2.v.  Executable model of the row mapper, channel mapper and averaging loops: arrays are functions from indices, loops are folds in program order, exceptions are values.  Arithmetic is an abstract record of operations, so the mapping theorems hold for float arithmetic as well; exact rationals instantiate it in the examples.  Proof by loop invariants over the row, time and baseline loops.
* **C17 Channel/correlation inference is consistent** (proved) - AvgModel.v, AvgModel2.v.  Executable model of the row mapper, channel mapper and averaging loops: arrays are functions from indices, loops are folds in program order, exceptions are values.  Arithmetic is an abstract record of operations, so the mapping theorems hold for float arithmetic as well; exact rationals instantiate it in the examples.  Proof by loop invariants over the row, time and baseline loops.
* **C18 Aggregated dask chunks cover the same extent** (proved) - UtilModel.v.  Direct functional model on lists of naturals and integers; induction over the chunk list.
* **C19 Aggregation is greedy and adds no empty chunk** (proved) - UtilModel.v.  Direct functional model on lists of naturals and integers; induction over the chunk list.
* **C20 Correlation shapes hold exactly ncorr elements** (proved) - UtilModel.v.  Direct functional model on lists of naturals and integers; induction over the chunk list.
* **C21 CUDA grids cover the domain minimally** (proved) - UtilModel.v.  Direct functional model on lists of naturals and integers; induction over the chunk list.
* **C22 Register assignment cycles implement the rotation** (proved) - UtilModel.v.  Model of the dictionary-driven loop and of the unrolled register moves of a warp; the dictionary is a permutation, cycle extraction ends without the assertion failing, and the moves compose to the transpose.
* **C23 Singleton is constructed at most once** (proved) - UtilModel.v.  Small-step interleaving model: a pool of threads, each with a program counter for the bytecode-level steps of the method, a shared store and a lock; invariants over all reachable states.
* **C24 Memoised function runs once per key** (proved) - UtilModel.v.  Small-step interleaving model: a pool of threads, each with a program counter for the bytecode-level steps of the method, a shared store and a lock; invariants over all reachable states.
* **C25 Optional requirement decorator decision table** (proved) - UtilModel.v.  Decision function over an abstract environment (import errors, pytest marker, documentation build).
* **C26 predict_vis evaluates the measurement equation** (proved) - PredictModel.v, DaskPredictModel.v.  Over an arbitrary commutative ring with conjugation; loops over sources and rows are folds.  The dask graph is a finite map of tasks, evaluated in any dependency order.
* **C27 Sources superpose** (proved) - PredictModel.v, DaskPredictModel.v.  Over an arbitrary commutative ring with conjugation; loops over sources and rows are folds.  The dask graph is a finite map of tasks, evaluated in any dependency order.
* **C28 Streamed and tree reductions over source chunks agree with the un-chunked prediction** (proved) - PredictModel.v, DaskPredictModel.v.  Over an arbitrary commutative ring with conjugation; loops over sources and rows are folds.  The dask graph is a finite map of tasks, evaluated in any dependency order.
* **C29 predict_vis argument checks** (proved) - PredictModel.v, DaskPredictModel.v.  Over an arbitrary commutative ring with conjugation; loops over sources and rows are folds.  The dask graph is a finite map of tasks, evaluated in any dependency order.
* **C30 Phase delay is a unit-modulus character** (proved) - RimeModel.v.  Over the reals, complex numbers as pairs.
* **C31 Feed rotation matrices are rotations** (proved) - RimeModel.v.  Over the reals, complex numbers as pairs.
* **C32 Source transformation rotates coordinates** (proved) - RimeModel.v.  Over the reals, complex numbers as pairs.
* **C33 WSClean prediction superposes sources** (proved) - SrcModel.v.  Over the reals; dask wrappers by chunk lookup.
* **C34 Frequency grid interpolation brackets** (proved) - BeamModel.v.  Over the reals; integer index arithmetic in Z; every read of the cube is checked.
* **C35 Beam interpolation is exact at grid nodes and a convex combination elsewhere** (proved) - BeamModel.v.  Over the reals; integer index arithmetic in Z; every read of the cube is checked.
* **C36 Corrupting with gains is the measurement equation** (proved) - CalModel.v.  Over an arbitrary field with conjugation; 2x2 matrix algebra by ring and field; chunk equivalence by induction over rows.
* **C37 Correction inverts corruption** (proved) - CalModel.v.  Over an arbitrary field with conjugation; 2x2 matrix algebra by ring and field; chunk equivalence by induction over rows.
* **C38 Residual is data minus corrupted model** (proved) - CalModel.v.  Over an arbitrary field with conjugation; 2x2 matrix algebra by ring and field; chunk equivalence by induction over rows.
* **C39 Row chunking for calibration never splits a time bin** (proved) - CalModel.v.  Over an arbitrary field with conjugation; 2x2 matrix algebra by ring and field; chunk equivalence by induction over rows.
* **C40 Chunked calibration equals whole-array calibration** (proved) - CalModel.v.  Over an arbitrary field with conjugation; 2x2 matrix algebra by ring and field; chunk equivalence by induction over rows.
* **C41 Polarisation-mode inference** (proved) - CalModel.v.  Over an arbitrary field with conjugation; 2x2 matrix algebra by ring and field; chunk equivalence by induction over rows.
* **C42 compute_and_corrupt equals corrupting the predicted model** (proved) - Cal2Model.v.  Over the reals; the Gauss-Newton iteration is a loop with a fuel equal to its documented maximum, its invariants are independent of the number of steps.
* **C43 Phase-only Gauss-Newton iteration** (proved) - Cal2Model.v.  Over the reals; the Gauss-Newton iteration is a loop with a fuel equal to its documented maximum, its invariants are independent of the number of steps.
* **C44 Hogbom CLEAN conserves flux** (proved) - HogModel.v.  Over the reals; loop invariant for any number of minor cycles; scipy's curve fit is an unknown function.
* **C45 Hogbom CLEAN stopping rule** (proved) - HogModel.v.  Over the reals; loop invariant for any number of minor cycles; scipy's curve fit is an unknown function.
* **C46 Peak search finds the extrema** (proved) - HogModel.v.  Over the reals; loop invariant for any number of minor cycles; scipy's curve fit is an unknown function.
* **C47 Direct Fourier transforms are adjoint** (proved) - DftModel.v.  Over the reals, finite sums by recursion; exchange of summation order; chunks by lookup.
* **C48 vis_to_im ignores flagged channels and sums over row chunks** (proved) - DftModel.v.  Over the reals, finite sums by recursion; exchange of summation order; chunks by lookup.
* **C49 im_to_vis zero-pixel shortcut is invisible** (proved) - DftModel.v.  Over the reals, finite sums by recursion; exchange of summation order; chunks by lookup.
* **C50 Stokes/correlation conversion round-trips** (proved) - CohModel.v.  Conversion table as data; schemas are a nested datatype; traversal by structural induction.
* **C51 Stokes conversion schema handling** (proved) - CohModel.v.  Conversion table as data; schemas are a nested datatype; traversal by structural induction.
* **C52 Gaussian shape function is a visibility envelope** (proved) - SrcModel.v.  Over the reals; dask wrappers by chunk lookup.
* **C53 Spectral model equals Stokes at reference frequency** (proved) - SrcModel.v.  Over the reals; dask wrappers by chunk lookup.
* **C54 WSClean spectra** (proved) - SrcModel.v.  Over the reals; dask wrappers by chunk lookup.
* **C55 WSClean file loading keeps rows aligned** (proved) - LoadModel.v.  Character-level model of the parser; Python's float and literal_eval are unknown functions.
* **C56 Spectral index fit is Gauss-Newton least squares** (proved) - SpiModel.v.  Over the reals; the Gauss-Newton loop of one component, its fixed point and its stopping rule.
* **C57 Kronecker mat-vec equals the dense product** (proved) - KronModel.v.  Reshape and transpose loops on flat vectors over a ring; the specification is the textbook Kronecker entry; numpy's Cholesky is an oracle with its textbook contract.
* **C58 Rectangular Kronecker mat-vec equals the dense product** (proved) - KronModel.v.  Reshape and transpose loops on flat vectors over a ring; the specification is the textbook Kronecker entry; numpy's Cholesky is an oracle with its textbook contract.
* **C59 Kronecker mat-mat applies the dense operator to every column** (proved) - KronModel.v.  Reshape and transpose loops on flat vectors over a ring; the specification is the textbook Kronecker entry; numpy's Cholesky is an oracle with its textbook contract.
* **C60 Split boxes tile the parent box** (proved) - GeomModel.v.  Integer geometry in Z and exact rationals; scipy's ConvexHull delivers the corners; objects with cached masks are state machines.
* **C61 Padding a box gives the requested size and says exactly when the original stays inside** (proved) - GeomModel.v.  Integer geometry in Z and exact rationals; scipy's ConvexHull delivers the corners; objects with cached masks are state machines.
* **C62 Normalised masks form a partition of unity** (proved) - GeomModel.v.  Integer geometry in Z and exact rationals; scipy's ConvexHull delivers the corners; objects with cached masks are state machines.
* **C63 Extract then project regions reconstructs the image** (proved) - GeomModel.v.  Integer geometry in Z and exact rationals; scipy's ConvexHull delivers the corners; objects with cached masks are state machines.
* **C64 Direction cosines lie on the unit sphere and round-trip** (proved) - CoordModel.v.  Reals, trigonometric identities; dask wrappers by chunk lookup.
* **C65 Packed and unpacked convolution kernels are interchangeable** (proved) - GridModel.v.  Kernel positions and rounding exactly as written; grids as arrays of complex numbers; parallel rows as interleavings; dask blocks with their in-place effects.
* **C66 Scatter and gather place the kernel correctly and are adjoint** (proved) - GridModel.v.  Kernel positions and rounding exactly as written; grids as arrays of complex numbers; parallel rows as interleavings; dask blocks with their in-place effects.
* **C67 Stokes gridding policies round-trip** (proved) - StokesGridModel.v.  Conversion policies as functions on complex vectors.
* **C68 Phase rotation to a facet centre is undone by the reverse rotation** (proved) - FacetModel.v.  Reals; in-place updates on the memory of uvw.
* **C69 uvw rotation: the matrix is a rotation, the code is not** (proved) - FacetModel.v.  Reals; in-place updates on the memory of uvw.
* **C70 Gridding is linear, additive over rows, and sums kernel-weighted Stokes values** (proved) - GridModel.v.  Kernel positions and rounding exactly as written; grids as arrays of complex numbers; parallel rows as interleavings; dask blocks with their in-place effects.
* **C71 Degridding rows are independent of order, block and chunk** (proved) - GridModel.v.  Kernel positions and rounding exactly as written; grids as arrays of complex numbers; parallel rows as interleavings; dask blocks with their in-place effects.
* **C72 Gridding with nifty in streams** (proved) - NiftyModel.v.  Task graph generated by the model, evaluated recursively; multiplicity counting over keys; the gridding library is an unknown function with named hypotheses.
* **C73 Wide-field images by band** (proved) - WgridModel.v.  External gridder is an unknown function with named hypotheses (linearity, adjointness), met by an exact instance.
* **C74 Squared-exponential covariance and its power spectrum** (proved) - GpsModel.v.  Reals; positive semidefiniteness by a finite sum of squares (power series).
* **C75 Command-line assignment parser is safe** (proved) - CmdModel.v.  Syntax-tree datatype with an evaluator returning result and calls made; safety by structural induction.
* **C76 CASA stokes enumeration is a bijection** (proved) - CohModel.v.  Finite table lifted by forallb.
* **C77 Beam axes, grids and file names** (proved) - AxesModel.v.  Headers as finite maps, strings as ASCII lists; grammar of the file name template.
* **C78 The CUDA warp transpose macro transposes** (proved) - UtilModel.v.  Model of the dictionary-driven loop and of the unrolled register moves of a warp; the dictionary is a permutation, cycle extraction ends without the assertion failing, and the moves compose to the transpose.
* **C79 When the averaging row mapper actually opens a bin** (proved) - AvgModel.v.  Same model as C01 to C17; the rule is a relation on consecutive rows of a baseline.
* **C80 Kronecker Cholesky factors the whole matrix** (proved) - KronModel.v.  Reshape and transpose loops on flat vectors over a ring; the specification is the textbook Kronecker entry; numpy's Cholesky is an oracle with its textbook contract.
* **C81 Hull membership and separation are exact half plane tests** (proved) - GeomModel.v.  Integer geometry in Z and exact rationals; scipy's ConvexHull delivers the corners; objects with cached masks are state machines.
* **C82 Axis aligned bounding boxes contain what they bound** (proved) - GeomModel.v.  Integer geometry in Z and exact rationals; scipy's ConvexHull delivers the corners; objects with cached masks are state machines.
* **C83 The filled mask is fixed by the first read until invalidated** (proved) - GeomModel.v.  Integer geometry in Z and exact rationals; scipy's ConvexHull delivers the corners; objects with cached masks are state machines.
* **C84 Parallactic angle backend selection** (proved) - RimeModel.v.  Decision function; backends are arbitrary results.
* **C85 Zernike indices and polynomials** (proved) - ZernModel.v.  Index bijection by arithmetic on triangular numbers; radial polynomials over the reals.
* **C86 Convolution kernels and detapering** (proved) - KernModel.v.  Reals; numpy's FFT is its defining sum.
* **C87 Averaging a chunked data set** (proved) - DaskAvgModel.v.  Blocks of the graph as calls of the numpy model on slices; alignment lets every block sum be identified with a block of the unchunked sum.
* **C88 Cubic splines** (proved) - SplineModel.v.  Exact rationals; invariants of the sweep and the back substitution; field identities for the pieces.
* **C89 Estimating progress bar** (proved) - BarModel.v.  The callbacks are functions on dictionaries kept as association lists; histories are lists of events, read backwards by the specification.  Invariant: the bins equal the counts of the history.  The timer thread and the callbacks interleave in a step relation with the lock; invariant over all reachable states.
* **C90 Chunked phase delays, angles, feed rotations, shapes and spectra equal the whole-array results** (proved) - DaskRimeModel.v.  An element is read from the block that `locate` finds; labels missing in the output arrive as lists of blocks of which the wrapper takes the first.  Proof: both sides have the closed form already proved of the kernels (C01..C03, C50 and so on) and the offsets cancel.  Feed rotation: ravel and unravel are inverse inside the shape.  The measures server is a state; its last epoch and place are overwritten before each use.
* **C91 Chunked coherency conversion equals the conversion of the whole array** (proved) - DaskRimeModel.v.  An element is read from the block that `locate` finds; labels missing in the output arrive as lists of blocks of which the wrapper takes the first.  Proof: both sides have the closed form already proved of the kernels (C01..C03, C50 and so on) and the offsets cancel.  Feed rotation: ravel and unravel are inverse inside the shape.  The measures server is a state; its last epoch and place are overwritten before each use.
* **C92 The CUDA prediction evaluates the measurement equation whatever the order of its warps** (proved) - CudaPredictModel.v.  The rendered kernel is one function per thread, run warp by warp in any order; shuffles read the registers of the other lanes of the warp, those of lanes that have left are arbitrary.  Proof: each thread group of 1, 2 or 4 lanes holds the components of one product, the products are the ring expressions of C04's specification, and writes of different warps do not meet.
* **C93 The CUDA phase delay and feed rotation give the CPU results for every interleaving of their threads** (proved) - CudaModel.v: a relation of single steps, any thread may go next.  CudaProofs.v proves once, for any kernel, that if every instruction yields the intended value whenever the places it may rely on (its own earlier writes, and writes before a passed barrier by its group) hold theirs, then every run ends, is never stuck and leaves the intended output (invariant over reachable states, a decreasing measure, induction on the phase for progress).  CudaRimeProofs.v discharges the condition for the two kernels.
* **C94 The CUDA beam gives the CPU beam for every interleaving, for up to 1024 channels and rows that can load the extents** (proved) - CudaBeamModel.v, both launches as kernels of CudaModel.v; whether a warp runs in step is a parameter that gives or takes a barrier.  CudaBeamProofs.v: the search needs no sorted map to stay in range and reads only the map.  CudaBeamProofs3.v proves what either kernel leaves for any initial shared memory, stale places included; the positive theorem and the refutations are corollaries.  The race: four steps of the first thread, then the general theorem from that state.
* **C95 The CUDA conversion of polarisations agrees with the CPU conversion whenever it returns, for every schedule of its threads** (proved) - CudaCohModel.v.  A launch is a list of groups of lanes in any order; a group loads, transposes (UtilModel.v's warp_transpose, C78), assigns, transposes back and stores.  Proof: loops by invariant; source s is in group s mod m, lane s / m, where m groups are needed, so groups write disjoint places; the two dictionaries are related entry by entry; an accepted output schema is regular with at most 8 names, hence 1, 2, 4 or 8 elements, which divide the block.
* **C96 Cached CUDA kernels: which checks an earlier call can switch off** (proved) - CudaMemoModel.v.  memoize_on_key as a state (the dictionary) folded over the history; by induction from the right the dictionary holds, for a key, the value of the earliest successful call.  For each generator: what it returns is a function of the key, for the beam and the conversion up to the check of the shape; the launch of an array of another shape reads the same flat memory as that of the reshaped one.
* **C97 Installing the CUDA header libraries: safe under threads, failures and crashes** (proved) - InstallModel.v.  A relation of single steps of threads of processes on one disk; each step that uses network, disk or zip may fail, a download may write anything, rmtree may leave any part, a copy across file systems proceeds in any order.  Proof: invariants over all runs (lock = the thread inside; flag => check holds; what is unpacked has the expected hash; on one file system a directory that passes the check is complete); the refutations build runs.
* **C98 The prediction script writes the visibilities of the sky model** (proved) - PipeModel.v composes the models of phase_delay, spectral_model, convert, gaussian, feed_rotation, beam_cube_dde and predict_vis as the script does, with einsum as a function of letters.  PipeSpec.v states one source in one row.  Proof: einsum evaluates to the product at the values of the letters (induction over the letters summed over); then the theorems of C26, C30, C31, C35, C50, C52, C53 and C64 are chained; np.unique's index finds the row's own time; each chunk is the dataset shifted.
* **C99 The estimated cell size samples every baseline, and which image sizes are refused** (proved) - CellModel.v.  Numbers are finite or infinite or NaN; a flag says whether a division by zero raises (Python) or not (NumPy).  Proof: folds for maximum and minimum characterised by membership; the rest is field arithmetic.
* **C100 Generated beam files hold the beam at the coordinates their headers declare** (proved) - BeamFactoryModel.v writes the header as a list of cards and the cube as a function; AxesModel.v's beam_grids reads it.  Proof: the axes of the header are computed once for symbolic sizes and frequencies; the rest is field arithmetic, monotonicity of cosine, and induction along the frequencies.
* **C101 Predicting a FITS image: every pixel at its direction, unpolarised** (proved) - FitsPredictModel.v: the header as a record, np.sort as insertion, the interpolator at its own l and m as a line in frequency, then DftModel.v's dask im_to_vis.  Proof: the sum over the filtered pixels is the sum over all, since the others are zero; sorting a descending arithmetic sequence reverses it.
* **C102 The different routes to the same visibilities agree** (proved) - No new model: RouteSpec.v builds the arguments of predict_vis that stand for the other route.  Proof: the values of both sides are known from C26, C30, C33, C36, C38, C42, C49 and C54; the sums over sources are compared term by term.
* **C103 The in-place rebasing of the time bin indices is safe for shared and reused arrays** (proved) - RebaseModel.v: threads as program counters that do one read or write of the shared array at a time; a schedule is any list of thread numbers.  Proof: an invariant over all schedules once the minimum is zero; a measure that every step of a thread lowers by one; the race is an explicit schedule for any number of threads and any array.  Reuse: each computation subtracts a constant within a block, so the rows of the bins stay the same.
* **C104 The example that applies gains to a measurement set applies to each row the gains of its own time** (proved) - ApplyGainsModel.v composes chunkify_rows and the dask corrupt_vis of CalModel.v as the script does, with dask's sizes of chunks and its repetition of single blocks.  Proof: the chunks of times start where those of chunkify_rows do, so C40 gives the blocks; C39 gives the bin of each row; the rest is a case analysis on what is refused.
* **C105 The phase screen example simulates the sky seen through the screens it returns, and its calibration can explain that data** (proved) - ScreenModel.v composes chunkify_rows, radec_to_lm, the dask compute_and_corrupt_vis and im_to_vis as the scripts do, reusing the chunk sizes of ApplyGainsModel.v.  Proof: C40 and C42 give each block, C64 the direction cosines (n is the cosine of the distance from the centre), then the unit phases are added; the residual is a difference of two such sums.
* **C106 The spectral index fitter restores the model with the clean beam of the header** (proved) - RestoreModel.v follows the script step by step: padding, shifts, transforms of real data with half a spectrum, product, inverse, shift, slice.  FftFacts.v proves that the powers of a root of unity add up to zero, hence the convolution theorem.  Proof: the half spectrum of real data determines the whole; the shifts permute the sums; the padding selects a window; inside the cut-off at most one kernel pixel lands on each pixel.  The bound on pi comes from the standard library's series.
* **C107 The spectral index fitter writes the fit of every bright pixel and nothing else** (proved) - FitterModel.v composes RestoreModel.v's convolution and the dask fit of SpiModel.v as main does; the mask is a list of pixels in row order, the maps are arrays updated at the mask.  Proof: the mask is characterised by membership and has no repetitions, so scattering puts each fit at its pixel; C56 gives each fit whatever the chunks; linearity of the circular convolution keeps power laws; the outcomes are a case analysis along the script.
* **C108 The spectral index fitter divides each source by the primary beam at its position** (proved) - FitBeamModel.v: the loop over the files as a fold over paths with Python's substring test, then BeamModel.v's beam_cube_dde.  Proof: a tag of two letters without underscore occurs in a_b exactly if it occurs in a or in b, so each file has one kind; an invariant of the fold gives the variables whatever the order; C35 gives the interpolation, which for a cube without negative values is linear.
* **C109 The generated phase-only gains are drawn from the stated Gaussian process** (proved) - GpGainsModel.v: the script as one function of the columns, the random numbers and a Cholesky routine.  Proof: C74 makes the covariances positive semidefinite, the jitter makes them positive definite, so one of the two attempts succeeds; C57 and C80 for the Kronecker products.  That a Cholesky routine exists is proved by Schur complements.
* **C110 Compiling CUDA sources leaves the process as it was and uses the requested options** (proved) - NvccModel.v: the module as a state machine (caches, temporary directories, stderr, descriptors, compiler object, commands started); every answer of the outside is an argument of the call, so that theorems about histories range over all environments and failures.  Proof: invariants preserved by every call, by induction over histories; a general lemma lifts an invariant from the primitive updates to all calls.
* **C111 Results have the precision of their inputs, and the dask arrays the type they say they have** (proved) - Types of results (DtypeModel.v).  NumPy's types are an enumeration, promote and result_type are NumPy's rules; a value of type call names a function with the types of its arguments, declared and computed give the type of the dask array and of its blocks.  The inference is proved by induction over the list of arguments; the two maps are compared by cases over all functions and types, predict_vis through two bits (complex, double) that promotion joins.
* **C112 Areas, default masks and centres of hulls** (proved) - HullModel.v: corners as the points that scipy's ConvexHull (an argument) selects, edges, normals, midpoints, the shoelace sum, the pixel mask from the bounding rectangle filtered by the edges.  The specification is the sum of signed triangle areas seen from any point inside.  Proof: the shoelace sum does not depend on the origin; an edge list is a walk around, so rotations and reversals permute it; the bounding rectangle contains the hull because a closed walk must turn back.
* **C113 Rounding errors of predicted visibilities are bounded** (proved) - RoundModel.v: the operations of the models over abstract arithmetic are instantiated with pairs of reals and a rounding after every operation (Flocq's rounding to nearest for the constants).  PredictModel.v and DaskPredictModel.v are run unchanged in three arithmetics at once: rounded, exact, and on the sizes of the entries.  The invariant: the rounded value is within (1+u)^k - 1 times the third of the second; sums add one to k, products two.
* **C114 Rounding errors of averages are bounded** (proved) - RavgModel.v: AvgModel.v and AvgModel2.v, whose arithmetic is open, run with a rounding after every operation.  The theorems C06-C11 about arithmetic without laws say which sequence of operations each output is; RavgProofs.v bounds the error of such a sequence by induction on the list of samples.  The width of bins follows from the comparison that admitted the last row, all of whose operands are within two roundings.
* **C115 Rounding errors of phase delays and direct Fourier transforms are bounded** (proved) - RdftModel.v: the kernels of phase.py and dft/kernels.py over a record of operations; with exact operations they are proved equal to RimeModel.v and DftModel.v.  The error of n comes from |sqrt a - sqrt b| <= |a-b| / sqrt b, of the phase from counting roundings, of its cosine from the mean value theorem, and of the sums by induction on the number of terms.
* **C116 Hogbom CLEAN converges** (proved) - CleanSpec.v, CleanProofs.v: no new model; about hogbom_clean of HogModel.v.  By C45 a run is a sequence of minor cycles; a quadratic form (the error in the norm of the point spread function) falls in each of them by an amount that the threshold bounds from below, and it is never negative.  For a sum of cosines the form is a sum of squares.
* **C117 Averaging in two steps is averaging in one** (proved) - StepsSpec.v, StepsProofs.v: no new model; about row_chan_average and chan_average of AvgModel2.v with exact reals.  By C12 an output cell is a function of the list of samples in its bin; the list of the final bin is a permutation of the lists of its parts, chosen by the same flags, and mean times weight of a part is its weighted sum, also when the weight is 0.
* **C118 Images made by direct transforms can be deconvolved** (proved) - ImgSpec.v, ImgProofs.v: no new model; about DftModel.v and HogModel.v together.  Without w the phase of a pixel is linear in its indices, so the phase difference of two pixels is the phase of a pixel of the point spread function; the latter is the sum of cosines of C116.
* **C119 Phase-only calibration in one direction converges** (proved) - PhaseSpec.v, PhaseProofs.v: no new model; about gauss_newton of Cal2Model.v.  By C43 a run is a sequence of steps.  For one row two mean values bound the new squared residual by the old one, its derivative times the change, and |m|^2 times the change squared; summed over the rows, half of re(J^H r) / J^H J lowers the sum by twice J^H J times the change squared.
* **C120 Rounding errors of corrupted and residual visibilities are bounded** (proved) - RcalSpec.v, RcalProofs.v: no new model; corrupt_vis and residual_vis of CalModel.v over the rounding arithmetic of RoundModel.v, with an arbitrary division (they do not divide).  Per direction a chain of seven roundings, one more per direction for the accumulation; the lemmas on sums and products are those of C113.
* **C121 CLEAN finds isolated sources** (proved) - IsoSpec.v, IsoProofs.v: no new model; about hogbom_clean of HogModel.v.  Invariant of a run (C45): the residual is the response to what is left of the sky, which is nowhere negative.  The brightest of what is left exceeds the sum of the sidelobes anywhere else, so the peak is on a source; the gain bounds what is taken.  The flux that is left falls by at least gain times threshold in each cycle.
* **C122 CLEAN conserves the image up to rounding** (proved) - RhogModel.v, RhogSpec.v, RhogProofs.v: hogbom_clean of clean.py:103-188 again with every operation rounded; without rounding it is equal to the model of HogModel.v (C122_unrounded).  find_peak only compares and is shared.  Invariant: exact sums Z of the rounded components; the component image is Z up to k factors 1 +- u, the residual is the dirty image minus the response of Z up to the errors of k subtractions.  The peak stays non-negative because rounding keeps order and gain times peak does not exceed the peak.
* **C123 Sources imaged by an interferometer are found by CLEAN** (proved) - SynSpec.v, SynProofs.v: no new model; DftModel.v and HogModel.v together.  The sum of cosines over a full turn telescopes after multiplication with the sine of half the step, which is not zero; so the point spread function of a full coverage vanishes at every distance that is not a multiple of the image size.  The rest is C118 and C121 with sidelobes 0.
* **C124 Rounding errors of Stokes conversion** (proved) - RcohModel.v, RcohSpec.v, RcohProofs.v: convert of CohModel.v over real numbers with rounded operations.  convert_ok (which pair of inputs each output is computed from) needs no ring laws and is shared with C50.  Halving is exact in binary, so rounding twice is rounding once; a value and its exact copy have exact mean.
* **C125 CLEAN of noisy images finds sources and no noise** (proved) - NoiseSpec.v, NoiseProofs.v, NoiseProofs2.v: no new model; hogbom_clean of HogModel.v and the transforms of DftModel.v.  Invariant of a run (C45): the residual is within eps of the response of what is left of the sky, which is nowhere negative.  What is left at the peak exceeds gain times peak because the peak exceeds the threshold.  A visibility error contributes its projection on the phase, at most its modulus.
* **C126 Docstring templates and file digests** (proved) - DocsModel.v, DocsSpec.v, DocsProofs.v: the matcher of docs.py:46-59 written out for each alternative of the pattern, str.replace, and the read loop of files.py.  Templates are described as lists of pieces; matching what the pieces write gives the pieces back, and a string that is not written by pieces fails.  The digest loop is an induction over what is left of the file, with any sequence of partial reads.
* **C127 Rounding errors of gridding are bounded** (proved) - RgridModel.v, RgridSpec.v, RgridProofs.v: the scatter policies and the loops of the gridder again with every operation rounded; without rounding they are equal to GridModel.v.  Every cell meets at most one tap of each visibility (single_hit); the errors add up by induction over taps, channels and rows, with the error calculus of C114.  C127_gridder compares with C70's exact gridder.
* **C128 Rounding errors of degridding are bounded** (proved) - RdegridModel.v, RdegridSpec.v, RdegridProofs.v: the gather policies again with every operation rounded.  The sum over taps is the sum over cells (axis, kernel_taps); the errors of the two nested loops by induction with the error calculus of C114, then the quotient bound of C127.  C128_gather compares with the exact convolve_gather of GridModel.v.

## Where the code differs from what its documentation or a user would say

Each is a theorem (`_refuted`, or part of the named theorem) about the model.

* **C06**: C06_time_mean_interval_sum proves the claim as stated; C06_flagged_rows_excluded_refuted shows the docstring's other reading (flagged rows excluded) is false of the code. (C06_flagged_rows_excluded_refuted)
* **C08**: Proved for a common interval; C08_varying_interval_refuted shows the restriction is needed. (C08_varying_interval_refuted)
* **C09**: The greedy reading is false of the code: C09_greedy_refuted gives a witness (stale bin_low). C09_bin_opening_rule_partial states the rule that does hold; see also C79. (C09_greedy_refuted)
* **C13**: C13_nonbinary_row_flags_refuted shows that flag_row values other than 0/1 can raise Zero-filled bin; the positive theorems cover 0/1 flags. (C13_nonbinary_row_flags_refuted)
* **C23**: Proved for truthy instances of classes not derived from one another; C23_subclass_refuted and C23_falsy_refuted show both conditions are needed. (C23_subclass_refuted, C23_falsy_refuted)
* **C28**: C28_base_vis_only_refuted shows why a term other than base_vis is required; C28_graph_length_refuted shows that len() of the reduction graph is not its number of keys with several source blocks (no effect on values). (C28_base_vis_only_refuted, C28_graph_length_refuted)
* **C32**: The property is reworded to what holds; C32_rotation_refuted shows the intended rotation claim is false of the code (rime/transform.py:30-31 overwrites l before computing m). (C32_rotation_refuted)
* **C33**: Over the reals. C33_coefficient_chunks_refuted: coefficients in several chunks, all but the first are dropped (rime/dask_predict.py). (C33_coefficient_chunks_refuted)
* **C35**: Over real numbers; sin, cos and sqrt are exact. C35_long_map_refuted shows the unchecked precondition: a frequency map longer than the cube reads outside it. (C35_long_map_refuted)
* **C43**: Real arithmetic, jhj = 0 gives 0 rather than NaN in the model. tol >= 0. Refuted: C43_inputs_unchanged_refuted (vis and model are scaled in place), C43_declared_shape_refuted (dask results declare the row chunks as sizes of the time axis). (C43_inputs_unchanged_refuted, C43_declared_shape_refuted)
* **C44**: Real arithmetic; curve_fit is an oracle; fftconvolve is modelled as the exact convolution. Refuted: C44_psf_centre_refuted (a PSF centred on the middle pixel (n,n) is not subtracted where the component is placed). (C44_psf_centre_refuted)
* **C45**: Refuted: C45_at_most_niter_refuted (niter + 1 cycles are made), C45_absolute_threshold_refuted (threshold is relative to the first peak). (C45_at_most_niter_refuted, C45_absolute_threshold_refuted)
* **C46**: The original wording (absolute value, first position) is refuted by C46_absolute_refuted and C46_first_refuted. (C46_absolute_refuted, C46_first_refuted)
* **C48**: C48_corr_chunks_refuted: with correlation-dependent flags the dask result depends on the chunking of the correlations. (C48_corr_chunks_refuted)
* **C50**: C50_non_hermitian_refuted: correlations that are not Hermitian do not survive the round trip through Stokes parameters. (C50_non_hermitian_refuted)
* **C51**: C51_ragged_refuted: names at two depths are accepted although the shape then has unnamed (never written) elements. C51_unknown_output_refuted: an unknown output that comes first raises UnboundLocalError instead of ValueError. Broadcasting between operands of such irregular schemas is not modelled. (C51_unknown_output_refuted, C51_ragged_refuted)
* **C53**: Over the reals; logarithmic curves need a positive Stokes parameter. C53_long_list_refuted: with more bases than polarisations the compiled function succeeds and the reference raises. C53_pol_chunks_refuted: with a base list and chunked polarisations every chunk starts from the first base. (C53_long_list_refuted, C53_pol_chunks_refuted)
* **C54**: Over the reals. C54_negative_coefficient_refuted: a logarithmic source of positive flux but with a negative coefficient is rejected, although the reference computes it (spec_model.py:97). (C54_negative_coefficient_refuted)
* **C55**: The three refuted theorems state where the code is laxer than its documentation suggests: text after an angle is ignored, several signs are read differently in the two angle columns, and nested brackets are split at inner commas. (C55_nested_refuted, C55_trailing_refuted, C55_signs_refuted)
* **C56**: Exact reals. C56_channel_chunks_refuted: the dask wrapper silently fits only the first channel chunk. C56_raises: tolerance >= 1, no iterations, or two channels end in an error. The documented default intensity of 1.0 is not what the code uses; the theorems state the actual default (nearest channel). (C56_channel_chunks_refuted)
* **C58**: C58_int8_refuted shows the size restriction is needed: factor sizes are stored in int8 arrays. (C58_int8_refuted)
* **C59**: [store] is the conversion made by assigning into the float64 result; C59_complex_refuted shows the loss for complex data. (C59_complex_refuted)
* **C60**: C60_uneven_refuted and C60_thin_piece_refuted show that boxes that cannot be cut into pieces two pixels wide stick out of the parent or raise QhullError. (C60_uneven_refuted, C60_thin_piece_refuted)
* **C61**: C61_contains_refuted: a 4x4 box padded to 4x4 is moved by one pixel. (C61_contains_refuted)
* **C62**: C62_negative_x_refuted: with negative x the flattened indices collide and the weights are wrong. np.float (removed from recent numpy) is read as float. (C62_negative_x_refuted)
* **C63**: C63_swapped_axes_refuted: the range check compares x with the rows and y with the columns, so valid regions of non-square images raise ValueError. C63_oob_value_refuted: outside pixels are zero, not oob_value as documented. One image plane, exact rationals, no NaN. (C63_swapped_axes_refuted, C63_oob_value_refuted)
* **C64**: Over real numbers. C64_across_pole_refuted and C64_behind_refuted show where the unconditional inverse fails (arctan instead of arctan2; positive square root). (C64_across_pole_refuted, C64_behind_refuted)
* **C66**: C66_nearest_outside_refuted: conv_nn_scatter does not check bounds; a position left of the grid wraps to its right edge and one right of it writes outside the memory.  Exact arithmetic. (C66_nearest_outside_refuted)
* **C67**: C67_missing_policy_refuted: RLLR_FROM_Q exists but Q_FROM_RLLR does not. (C67_missing_policy_refuted)
* **C68**: C68_behind_refuted: for a facet more than 90 degrees away the sign of n is lost. (C68_behind_refuted)
* **C69**: C69_rotate_length_refuted and C69_rotate_reads_outside: the documented isometry is false of uvw_rotate. (C69_rotate_length_refuted)
* **C70**: C70_second_facet_refuted, C70_chunked_sum_refuted and C70_chunked_channels_refuted show where the dask gridder departs from the sum: in-place transforms shared by facets, mean instead of sum over row blocks, later channel chunks dropped. C70_value is for the unpacked 1d policy; the packed one is equal by C65_packed_scatter. (C70_second_facet_refuted, C70_chunked_sum_refuted, C70_chunked_channels_refuted)
* **C71**: C71_rotate_order_refuted: with baseline policy 'rotate' the parallel degridder depends on the order of rows because index 3 of a row is the first component of the next. C71_chunked covers the facets of the first facet chunk only, later facet chunks are dropped by the code; with other policies the dask degridder passes all centres at once and is modelled as failing. (C71_rotate_order_refuted)
* **C72**: nifty_gridder is an unknown library; assumptions on it are named and C72_library shows one that has them. Refuted: C72_run_again_in_place_refuted, C72_negative_streams_refuted. (C72_run_again_in_place_refuted, C72_negative_streams_refuted)
* **C73**: ducc's ms2dirty and dirty2ms are unknown functions; each theorem names the properties assumed of them (C73_library shows an exact library that has them all). Refuted: C73_offset_refuted (bins are shifted to channel 0), C73_one_channel_block_refuted, C73_hessian_image_chunks_refuted, C73_model_image_chunks_refuted. C73_one_band_block_refuted: one block of bands for several blocks of channels uses the first block only. C73_no_bands: without bins every function raises ValueError. (C73_offset_refuted, C73_one_channel_block_refuted, C73_hessian_image_chunks_refuted, C73_model_image_chunks_refuted, C73_one_band_block_refuted)
* **C74**: Over real numbers. C74_too_many_refuted: components of x beyond those of xp are ignored, so swapping the arguments need not transpose. C74_spectrum states the value the code computes: sqrt(2 pi l) and ordinary frequency, which is not the Fourier transform of the kernel (that has sqrt(2 pi) l and angular frequency). (C74_too_many_refuted)
* **C75**: The tree made by ast.parse is the input; the text parser is not modelled. C75_always_ValueError_refuted and C75_unpack_like_python_refuted show where the intended behaviour is missed. (C75_always_ValueError_refuted, C75_unpack_like_python_refuted)
* **C77**: Numbers are real, strings ASCII. The original claim of ascending grids is false for negative CDELT and was dropped. Refuted: the axis name in l_axis/m_axis matters (only the sign does); a minus sign in CTYPE is understood; irregular grids in degrees are converted. (C77_argument_name_refuted, C77_signed_ctype_refuted, C77_irregular_degrees_refuted)
* **C81**: Corners as delivered by scipy's ConvexHull are the input. C81_overlap_complete_refuted: overlaps_with returning True does not imply contact (distances are divided by the length of one edge). (C81_overlap_complete_refuted)
* **C82**: C82_square_hull_refuted: a square box around a general hull need not contain it, since the centre is the vertex mean. (C82_square_hull_refuted)
* **C83**: C83_stale_refuted: a mask set after the first read is not seen. (C83_stale_refuted)
* **C85**: Over real numbers; factorials do not overflow. C85_poly_chunks_refuted: polynomial chunks after the first are lost by the dask wrapper. (C85_poly_chunks_refuted)
* **C87**: The wished-for independence of the chunking fails: C87_row_chunks_refuted, C87_channel_chunks_refuted, C87_rows_only_refuted. C87_chunk and C87_one_row_chunk give what does hold, C87_sizes what is declared and computed. (C87_row_chunks_refuted, C87_channel_chunks_refuted, C87_rows_only_refuted)
* **C88**: What a user would expect of a cubic spline fails: C88_smooth_refuted (slope jumps), C88_boundary_refuted, C88_right_slope_refuted, C88_query_order_refuted. Exact rational arithmetic. C88_lines holds from four knots and keeps the ends of line_ends; C88_outside_queries: queries below the first query or above the last one (not the knots) drop the cubic term and use the coefficients of a wrong knot. (C88_smooth_refuted, C88_boundary_refuted, C88_right_slope_refuted, C88_query_order_refuted)
* **C89**: Three expectations fail: C89_finish_race_refuted (_finish clears the bins without the lock, so the timer thread can die of RuntimeError), C89_steady_refuted (timer_func resets the previous values in every turn, so the estimate moves without newly finished tasks), C89_sixty_refuted (59.5 s is shown as 60s). Also: the division by zero of C89_estimate ends the timer thread. (C89_sixty_refuted, C89_steady_refuted, C89_finish_race_refuted)
* **C90**: Equality for every chunking of the shared dimensions (C90_phase_delay, C90_gaussian, C90_transform, C90_feed, C90_parangles, C90_spectra, C90_spectra_raises). Refuted for cut contracted dimensions that are not unpacked: C90_spi_chunks_refuted (the wrapper takes spi[0], so later coefficients are dropped; C90_spectra_first says what is computed) and C90_positions_refuted (ap[0], shown with the test backend). Cut component dimensions raise ValueError (C90_components, C90_components_transform, C90_field_centre). The casacore position angle and the astropy backend are parameters; astropy is assumed to work element by element (per_element, instance C90_alone). (C90_positions_refuted, C90_spi_chunks_refuted)
* **C91**: C91_convert for every chunking of the leading dimensions; regular schemas (names only at the bottom). C91_cut_refuted: [I,Q,U,V] in chunks (2,2) gives XX = I+Q+U+V without an error, C91_cut_raises: XY raises IndexError. (C91_cut_refuted)
* **C92**: C92_measurement and C92_same_as_cpu. Findings: flat (4,) correlations differ from the CPU (C92_flat_four says what is computed, C92_flat_four_refuted); base visibilities alone do not compile (C92_base_only_refuted), nor do correlations other than 1, 2, 4 with antenna terms (C92_other_corrs). The kernel uses the time and antenna dimensions of the direction dependent terms for the direction independent ones as well: indices_ok requires that they agree. Not modelled: the mask of __ballot_sync, whose argument WARP_SIZE-1 names lanes 0 to 4 only; broadcasting of arrays whose sizes disagree. Kernels run over exact complex numbers. C92_one_by_one and C92_sum treat 1 x 1 matrices and plain sums. (C92_flat_four_refuted, C92_base_only_refuted)
* **C93**: Small step semantics of blocks, threads, barriers and shared memory in CudaModel.v; C93_phase, C93_phase_cpu, C93_feed, C93_feed_cpu. C93_strided_refuted: the kernel casts &lm[0] and &uvw[0] to packed vectors, so a transposed lm is misread silently. Threads outside the grid leave before the barrier; the barrier waits for the remaining threads only, as devices do. Only the fourier convention exists on the device. A scalar angle is accepted on the device and refused on the CPU (C90_feed_scalar). Exact reals; writes are atomic. (C93_strided_refuted)
* **C94**: C94_beam is conditional; C94_many_channels_refuted (beam_freqs is loaded where chan < 128 and not threadIdx.x < 128, so only block 0 fills it), C94_short_row_refuted and C94_lockstep_refuted show each condition is needed. The first holds for every input, the other two are witnessed by a small beam. Exact reals; writes are atomic; reads outside an array give some value; contiguous arrays; the length of the frequency map is that of the cube; the kernels have not been generated before. (C94_many_channels_refuted, C94_short_row_refuted, C94_lockstep_refuted)
* **C95**: C95_accepts_refuted: the CPU converts [I, Q, V] into [XX, YY, RR] but no data type makes the CUDA version do so; C95_verdict says which CPU conversions it refuses and how (complex Stokes arrays to correlations do not compile, for example). Exact arithmetic; the mask of the shuffles, integer wrap around of integer inputs and the cache of kernels are not modelled. (C95_accepts_refuted)
* **C96**: C96_beam_refuted and C96_convert_refuted: the checks of the shape are made when a kernel is generated but the shape is not part of the key, so a cube with one frequency is accepted after one with several, and four numbers in a row are accepted as a 2 x 2 coherency after a proper one. C96_convert_other_shapes says exactly what then happens. Interleavings of threads are those of C24: the lock makes the calls a list. (C96_beam_refuted, C96_convert_refuted)
* **C97**: The claims that fail are proved to fail: C97_interrupted_cub_refuted and C97_interrupted_trove_refuted (kill during a copy across file systems: any file but README.md and, for cub, cub/cub.cuh may be missing for ever), C97_two_processes_removed_refuted, C97_two_processes_unverified_refuted (the hash is compared and the archive opened in separate steps), C97_mkdtemp_refuted (UnboundLocalError instead of the installation error). Not in a theorem: cub's message about a wrong hash swaps the two hashes. (C97_interrupted_cub_refuted, C97_interrupted_trove_refuted, C97_two_processes_removed_refuted, C97_two_processes_unverified_refuted, C97_mkdtemp_refuted)
* **C98**: The claim about axes fails in general (C98_axes_refuted, orders with M first or third); C98_axes gives the exact rule. Findings: a fourth 2x2 brightness term is refused although the letters i, j, k, l are meant for it; all four Stokes parameters use the same spectral index; an empty sky model ends in AttributeError with four correlations. Exceptions of graph construction appear in the model when an element is read. (C98_axes_refuted)
* **C99**: The documented condition fails (C99_documented_refuted): the code refuses small images, the documentation large ones. For a single coordinate the refusal says only size < 2 factor. Division by zero is modelled as NumPy's infinities or Python's exception, depending on the types. (C99_documented_refuted)
* **C100**: Two parts of the claim fail. C100_single_channel_refuted: with one channel (or equal ends) the call succeeds only if all 31 inner random numbers are exactly one half, otherwise AssertionError. C100_step_refuted: CDELT3 is bandwidth / 33 - 1 (the division binds first), which is never the step bandwidth / 32; readers are saved by the GFREQ cards. dtype only decides BITPIX of a header that astropy rewrites for the float64 data. The same array goes to the real and the imaginary file of every correlation. (C100_single_channel_refuted, C100_step_refuted)
* **C101**: Proved for the script's steps if the frequencies are handed on as a vector. Refuted of the script as it stands: it hands on the table with its row dimension, so im_to_vis always refuses (C101_script_refuted), and without the dimension only one channel would do (C101_script_channels_refuted). Columns that descend in l, the usual case, are mirrored because l is sorted and the image is not (C101_mirrored, C101_columns_refuted). One single bright pixel is refused (C101_one_pixel_refuted). Interpolation refuses images that are not square, and with SciPy before 1.9 rows that descend in m (C101_interpolation_refused). (C101_script_refuted, C101_script_channels_refuted, C101_one_pixel_refuted, C101_columns_refuted)
* **C102**: All agreements are proved over the complex numbers (those of the calibration over any field with conjugation), except the one with compute_and_corrupt_vis, which divides every source by n: it is im_to_vis of the image divided by n (C102_unit_gains), and the amplitudes differ away from the phase centre (C102_unit_gains_refuted). Rounding is not modelled. (C102_unit_gains_refuted)
* **C103**: The property is false in general (C103_any_schedule_refuted): in every chunk that does not start at row 0, two or more tasks can find the minimum before one of them subtracts it, and then go through rows that are too low by a multiple of the first row (C103_race). It holds for the chunk that starts at row 0 under every schedule (C103_first_chunk) and whenever one task has rebased before the others start (C103_first_task_rebases). Computing again with the array left behind is right with the same chunks, any number of times (C103_reuse_same_chunks, for corrupt_vis), and wrong with other chunks (C103_reuse_other_chunks_refuted). Single reads and writes of elements are atomic in the model; that da.from_array hands out views of the user's array, and that tasks share a block, is taken from dask's behaviour and not derived. (C103_any_schedule_refuted, C103_reuse_other_chunks_refuted)
* **C104**: Proved for rows sorted by time, one to three columns and gains with as many times as the data (C104_gains, C104_chunks_irrelevant). The general claim is false in three ways: more than three columns are always refused because the directions are rechunked to three (C104_four_columns_refused); rows that are not sorted by time get the gains of other times (C104_unsorted_refuted); gains with too few times that fill as many chunks are accepted and the result depends on memory outside the array (C104_short_gains_refuted). Gains for one time work with one time per chunk because blockwise repeats a single block (C104_constant_gains). That blockwise repeats single blocks and refuses other numbers of blocks is part of the model. Rounding and the cast to complex64 are not modelled. (C104_short_gains_refuted, C104_unsorted_refuted)
* **C105**: The simulation is proved (C105_simulated, C105_chunks_irrelevant, C105_refused), as is the script with gains from a file (C105_gains_from_file, C105_gains_from_file_refused). That the calibration's model explains the data is false: compute_and_corrupt_vis divides by n and im_to_vis does not, so at the true gains the residual is the sum of flux (1/n - 1) with the phases of the data (C105_residual_at_true_gains). It vanishes with all sources in the phase centre (C105_centre_explained) and has the modulus |flux (1/n - 1)| for one source elsewhere (C105_single_source_unexplained, C105_true_gains_explain_refuted). With one or two correlations calibrate raises an IndexError on data that simulate just wrote (C105_calibration_needs_four). Rounding, the dtype declared to dask, and the absence of np.complex in recent NumPy are not modelled. (C105_true_gains_explain_refuted)
* **C106**: Proved: the FFT route is a circular convolution of the padded arrays (C106_convolution, from orthogonality of the roots of unity); which pixel counts as the kernel's centre (C106_centre); the sum of clean beams at the model pixels when the reference pixel is that centre and the beam fits into image and padding (C106_restored), and the same image displaced by the difference otherwise (C106_restored_elsewhere). False in general: an odd image referenced to its middle pixel and padded to an even length comes out one pixel off in both directions (C106_odd_image_refuted). The widths are not full widths at half maximum: the exponent has 2 sqrt(2 ln 2) where 4 ln 2 belongs, so the beam is above one half at half the width (C106_half_maximum_refuted). The position angle plus 90 goes into cos and sin as radians, so 180 is not half a turn (C106_degrees_refuted). Without padding on an axis slice(a, -0) is empty, and numpy's irfftn loses a column of an odd axis (C106_shape). A beam narrower than a fifth of a pixel raises an IndexError (C106_narrow_beam_raises, C106_beam_raises). Rounding, negative padding fractions and widths that are not positive are not modelled. (C106_half_maximum_refuted, C106_degrees_refuted, C106_odd_image_refuted)
* **C107**: Proved: what the maps hold (C107_maps), independence of the number of threads (C107_threads_irrelevant), exactness on a sky of power laws of the starting index -0.7 (C107_power_law), the outcome of every run with complete headers (C107_outcome), refusals (C107_refused, C107_few_bands), the files (C107_files, C107_prefix). False: not every shape is handled; the maps are made with NAXIS1 and NAXIS2 exchanged, so a bright pixel in a row beyond NAXIS1 or a column beyond NAXIS2 raises an IndexError (C107_any_shape_refuted), and the shape written for any image that is not square is the exchanged one (C107_files). Fewer bright pixels than threads raise ZeroDivisionError (C107_outcome). The help text describes runs without a residual; none succeeds (C107_refused), so the dynamic range and channel weight options have no effect. A card missing from the residual header (such as EQUINOX) ends the script after the cubes were written and before the maps (C107_missing_card). One or two bands are never fitted (C107_few_bands). The interpolation of the beam is an argument here.  Rounding, missing cards of the model image, a residual of another shape and the letters of the header cards written are not modelled. (C107_any_shape_refuted)
* **C108**: Proved: which images are used, in any order (C108_files); the exact value returned (C108_value) and its bounds, so a flat beam is divided out exactly (C108_bounds); the refusals (C108_refused). False as stated: the last coordinate of each axis is taken one pixel too far, so positions are shrunk and even the centre is missed: a peak of one in the central pixel is read as less than one half (C108_centre_refuted). Rows and columns are exchanged: a beam that changes with l alone gives the same value to all the sources of a row (C108_axes_exchanged_refuted). The tags are looked for in the whole path, so a directory with re in its name makes every beam unreadable (C108_directory_refuted). A negative step, as on the right ascension axis of sky images, is always refused (C108_refused). Beams whose frequencies decrease, images of different shapes and rounding are not modelled. (C108_directory_refuted, C108_centre_refuted, C108_axes_exchanged_refuted)
* **C109**: Proved for every routine that factorises positive definite matrices; one is constructed in GpGainsProofs.v (exact_cholesky).  The phases are the same linear combinations of the random numbers of each antenna and correlation, with the stated covariance (C109_phases) up to the jitter that kron_cholesky may add.  False as stated in two points: with as many times as channels as sources the script raises a TypeError, because the three matrices become one array (C109_refused); distances are taken in the tangent plane at right ascension and declination zero instead of the phase centre, so that even opposite points of the sky can have the same gains (C109_sky_distance_refuted).  A single time or channel divides by zero (NaNs). (C109_sky_distance_refuted)
* **C110**: Temporary directories, stderr, compiler object and CUDA directory are as stated after every history of calls (C110_cleaned_up, C110_cuda_path), and in a process that knows its devices the command is as stated (C110_compile).  False as stated: in Python 3 ast.literal_eval refuses the bytes printed by the stub, so that no CUDA source is ever compiled (C110_python3_refuted); with NVCC set, distutils.split_quoted does not exist (C110_nvcc_variable_refuted); the architecture is ignored (C110_architecture_refuted); errors of the compiler become a TypeError (C110_compile_error_refuted); every compilation costs a descriptor and leaves a directory with the object in the current directory (C110_descriptors_refuted); the caller's list gets -cubin each time (C110_options_refuted); the last lines of the messages are not searched (C110_last_lines_refuted).  Without a PATH, nvcc is looked for in the current directory. (C110_descriptors_refuted, C110_compile_error_refuted, C110_python3_refuted, C110_nvcc_variable_refuted, C110_architecture_refuted, C110_options_refuted, C110_last_lines_refuted)
* **C111**: NumPy's promotion of types is part of the model (promote, result_type).  C111_declared says exactly for which types the declared type is right; it is wrong in these cases: C111_spectra_refuted (fluxes less precise than frequencies), C111_base_vis_refuted, C111_compute_and_corrupt_refuted, C111_times_refuted (single precision times), C111_jhj_refuted (always).  Without a type the discrete Fourier transforms differ between dask and NumPy (C111_plain_and_chunked).  On the graphics card predict_vis returns complex128 for complex64 terms unless all six are given, because NumPy reads None as float64 (C111_cuda_predict_refuted).  Left out: coherency conversion, averaging, the nifty and Perley gridders. (C111_spectra_refuted, C111_base_vis_refuted, C111_compute_and_corrupt_refuted, C111_times_refuted, C111_jhj_refuted, C111_cuda_predict_refuted)
* **C112**: What does not hold: the area of a hull is not the number of its pixels unless it is a box (C112_pixels_refuted); with check_limits=False the mask is that of the bounding rectangle (C112_mask_unchecked_refuted); the centre may lie outside the hull (C112_centre_inside_refuted), depends on points inside that are no corners (C112_centre_of_hull_refuted) and does not move with the hull, because of the truncation towards zero (C112_centre_moves_refuted). (C112_pixels_refuted, C112_mask_unchecked_refuted, C112_centre_inside_refuted, C112_centre_of_hull_refuted, C112_centre_moves_refuted)
* **C113**: That the result does not depend on the order of the sources (C113_order_refuted) or on their chunking (C113_chunks_refuted) is false in double precision: the sources 1, 3*2^-55, 3*2^-55 sum to 1 in that order and to more than 1 in another or in chunks of one and two.  The inputs are the numbers as stored.  Overflow, underflow and contraction to fused operations are not modelled. (C113_order_refuted, C113_chunks_refuted)
* **C114**: In double precision two claims of exact arithmetic are false: that a bin is at most time_bin_secs long (C114_width_refuted: times -1/2 and 3*2^-55 with interval 2 fall in one bin of 5/2 seconds although they span more), and that a cell made of a single weighted sample is that sample (C114_single_weighted_refuted: a weight of 5 changes 1.75 + 7*2^-52, which is multiplied and then divided by it).  Overflow, underflow and the rounding of averaged sigmas are not stated. (C114_width_refuted, C114_single_weighted_refuted)
* **C115**: That every direction with l*l + m*m < 1 has a phase delay is false in double precision: C115_horizon_refuted gives l = 1 - (2^26+1) 2^-53, m = (2^30+5) 2^-43, for which the computed 1 - l*l - m*m is negative, and its square root NaN; C115_radicand says how far from the horizon this cannot happen.  Mixed precisions within one call, overflow and underflow are not modelled. (C115_horizon_refuted)
* **C116**: For gains above 2, which hogbom_clean does not refuse, convergence is false: C116_gain_refuted has gain 3 on a single pixel, whose residual doubles with every cycle.  The default of 3 n iterations need not be enough either: C116_default_iterations_refuted.  The threshold concerns the largest signed residual; C46 says what this leaves of negative ones.  Arithmetic is that of the reals. (C116_gain_refuted, C116_default_iterations_refuted)
* **C117**: Without weight spectra it is false: C117_unweighted_refuted averages rows 0, 1, 2 by two and then together.  Frequencies are plain means, so a shorter last bin of the first step counts as much as a whole one in the second: C117_frequencies_refuted.  How time bins of two steps compose depends on where row_mapper starts a bin and is not claimed; the theorem takes any two row maps.  Arithmetic is that of the reals. (C117_frequencies_refuted, C117_unweighted_refuted)
* **C118**: With a w component the image is no convolution: C118_w_refuted has one baseline and two directions.  Dividing by the number of rows is left to the user by the code.  Arithmetic is that of the reals. (C118_w_refuted)
* **C119**: Two limits of the solver: with data larger than the model an iteration can make the fit worse (C119_large_data_refuted: model 1, data 5 i), and so it can with several directions, even for data without noise (C119_directions_refuted: five directions in which the antennas have the same phase).  J^H J is only its diagonal, and the step is half a Gauss-Newton step, which is enough for one direction and not for several.  Arithmetic is that of the reals. (C119_large_data_refuted, C119_directions_refuted)
* **C120**: The residual of a corrupted model is not always exactly zero in double precision (C120_zero_residual_refuted: directions 1 and 3/2^55).  C40, proved without laws of arithmetic, says that the chunked functions compute the same floating point numbers as the whole ones, so the bounds hold for them too.  correct_vis is not bounded: it divides, and the error depends on the determinant of the gains.  Overflow and underflow are not modelled (C113). (C120_zero_residual_refuted)
* **C121**: The condition on the sidelobes is that of the coherence bound for matching pursuits.  It cannot be dropped: two sources within a beam are replaced by a component between them (C121_wide_beam_refuted), although the point spread function is below one outside its centre.  The gain must shrink with the number of sources because the peak of a source contains the sidelobes of the others.  Exact real arithmetic. (C121_wide_beam_refuted)
* **C122**: The bound only needs the outputs: it does not refer to the exact run, which may pick other pixels.  Equality is false in double precision: a component can be too small to change the residual (C122_exact_refuted).  Overflow and underflow are not modelled. (C122_exact_refuted)
* **C123**: Composition of C47, C118 and C121.  With one baseline of length zero a component is put where there is no source (C123_few_baselines_refuted).  Exact real arithmetic; baselines with a w component are excluded because the image is then no convolution (C118_w_refuted). (C123_few_baselines_refuted)
* **C124**: The error of Q is relative to the larger of I and Q: polarisation below 1e-16 of the total intensity is lost in linear correlations (C124_weak_refuted: I = 1, Q = 2^-60 comes back as Q = 0).  Rounding with unbounded exponents: no overflow, no underflow. (C124_weak_refuted)
* **C125**: Contains C121 and C123 as the case eps = 0 (for sidelobes below one).  With a threshold below the noise, noise becomes components (C125_low_threshold_refuted): the default threshold of a fifth of the peak protects only if the peak is high enough above the noise.  The bound is on each error, not on its variance. (C125_low_threshold_refuted)
* **C126**: A search string that straddles two fields of a documentation tuple is not replaced (C126_straddle_refuted); a tuple that is neither named nor a dictionary is a TypeError.  ${name} of string.Template is refused.  ASCII text; str.replace, the regular expression engine and Template.substitute are modelled from their documentation. (C126_straddle_refuted)
* **C127**: The bound is relative to the sizes of the terms: an error small relative to the cell itself, or independence of the order of the rows, cannot be had (C127_order_refuted).  Coordinates and Stokes values are those the machine has computed; a coordinate is placed on the grid exactly; no overflow, underflow or NaN. (C127_order_refuted)

## Axioms per theorem (`Print Assumptions`)

**Closed under the global context** (317 theorems): C01_unique, C01_unique_baselines, C02_row_map_total, C03_duplicates_rejected, C03_only_value_error, C04_no_baseline_mixing, C05_time_ordered, C06_flagged_rows_excluded_refuted, C06_time_mean_interval_sum, C07_row_flag_iff_all, C08_bin_width, C08_varying_interval_refuted, C09_bin_opening_rule_partial, C09_greedy_refuted, C102_corruption, C102_corruption_one_direction, C102_residual, C103_any_schedule_refuted, C103_finishes, C103_first_chunk, C103_first_task_rebases, C103_race, C103_reuse_other_chunks_refuted, C103_reuse_same_chunks, C104_chunks_irrelevant, C104_constant_gains, C104_correlations_refused, C104_dimensions_refused, C104_four_columns_refused, C104_gains, C104_short_gains_refuted, C104_times_refused, C104_unsorted_refuted, C107_asked, C107_prefix, C108_files, C10_channel_map, C110_architecture_refuted, C110_cleaned_up, C110_compile, C110_compile_error_refuted, C110_cuda_path, C110_descriptors_refuted, C110_devices, C110_files, C110_last_lines_refuted, C110_lines, C110_nvcc_variable_refuted, C110_options_refuted, C110_python3_refuted, C110_version, C111_base_vis_refuted, C111_compute_and_corrupt_refuted, C111_cuda_coords, C111_cuda_coords_refused, C111_cuda_feeds, C111_cuda_feeds_refused, C111_cuda_function, C111_cuda_function_refused, C111_cuda_phase, C111_cuda_phase_refused, C111_cuda_predict, C111_cuda_predict_indices, C111_cuda_predict_refuted, C111_cuda_type, C111_cuda_type_injective, C111_cuda_type_refused, C111_declared, C111_dirty_refused, C111_infer, C111_infer_order, C111_infer_other, C111_jhj_refuted, C111_plain_and_chunked, C111_predict, C111_promotion, C111_spectra_refuted, C111_times_refuted, C112_centre_box, C112_centre_inside_refuted, C112_centre_moves_refuted, C112_centre_of_hull_refuted, C112_mask_box, C112_mask_set, C112_mask_unchecked, C112_mask_unchecked_refuted, C112_normals, C11_row_average, C126_digest, C126_fields, C126_joined, C126_malformed, C126_one_after_another, C126_only_templates, C126_replace, C126_straddle_refuted, C12_row_chan_average, C13_cell_flag_iff_all, C13_nonbinary_row_flags_refuted, C13_time_and_channel_total, C13_zero_filled_iff, C14_weighted_vis_conserved, C15_bandwidth_conserved, C15_chan_average, C16_merge_flags, C17_chan_corrs, C18_aggregate_chunks, C19_greedy_no_empty, C20_corr_shape, C21_grids, C22_register_cycles, C23_falsy_refuted, C23_singleton, C23_subclass_refuted, C24_memoize, C24_one_success, C25_call, C25_requires_optional, C26_apply_gains, C26_measurement_equation, C27_reorder, C27_superposition, C28_base_vis_only_refuted, C28_chunked_predict, C28_graph_length, C28_graph_length_refuted, C28_no_sources, C28_stream_completes, C29_accepts, C29_checks, C29_dask_chunks, C36_corrupt_vis, C36_rebasing_idempotent, C37_correct_undoes_corrupt, C37_correct_vis, C37_one_direction_only, C38_residual_vis, C39_chunkify_rows, C39_zero_times_per_chunk, C40_chunked_correct, C40_chunked_corrupt, C40_chunked_residual, C40_chunkify_chunks_aligned, C40_several_refused, C41_check_type, C50_circular_roundtrip, C50_circular_roundtrip_back, C50_circular_to_stokes, C50_linear_roundtrip, C50_linear_roundtrip_back, C50_linear_to_stokes, C50_non_hermitian_refuted, C50_stokes_to_circular, C50_stokes_to_linear, C51_convert, C51_convert_needs, C51_convert_nothing, C51_pointwise, C51_ragged_refuted, C51_schema_accepted, C51_schema_positions, C51_schema_shape, C51_unknown_output_refuted, C55_fields, C55_nested_refuted, C57_bad_length, C57_kron_matvec, C58_int8_refuted, C58_kron_tensorvec, C59_bad_rows, C59_complex_refuted, C59_kron_matmat, C59_kron_tensormat, C60_row_major, C60_split_box_tiles, C60_thin_piece_refuted, C60_uneven_refuted, C60_zero_pieces, C61_contains_refuted, C61_pad_box, C61_too_small, C62_equal_shares, C62_negative_x_refuted, C62_no_pixels, C62_partition_of_unity, C63_extract_project, C63_normalized_reconstruction, C63_oob_value_refuted, C63_project_regions, C63_regional_data, C63_swapped_axes_refuted, C63_wrong_shape, C65_layout, C65_pack_unpack, C65_unpack_pack, C72_config, C72_consumed_once, C72_errors, C72_gridded_once, C72_lengths, C75_accepted, C75_always_ValueError_refuted, C75_errors, C75_failing_part, C75_not_assignment, C75_only_slice_is_called, C75_other_builtins, C75_other_target, C75_parts, C75_rejected, C75_unpack_like_python_refuted, C75_values, C76_id_to_type, C76_inverse, C76_type_to_id, C77_filename, C77_filenames, C77_files_differ, C77_letters, C77_strip, C77_unknown_id, C78_warp_transpose, C79_only_first_bin_averages, C80_kron_cholesky, C80_kron_cholesky_jitter, C81_hull_contains, C81_hull_convex, C81_no_overlap_sound, C81_overlap_complete_refuted, C82_axis_aligned, C82_square, C82_square_hull_refuted, C83_first_read, C83_normalised, C83_reads_agree, C83_stale_refuted, C85_index_bijective, C85_index_order, C87_channel_chunks_refuted, C87_chunk, C87_chunk_raises, C87_errors, C87_one_row_chunk, C87_row_chunks_refuted, C87_rows_only_refuted, C87_sizes, C88_beyond, C88_boundary_refuted, C88_errors, C88_interpolates, C88_lines, C88_memory, C88_outside_queries, C88_pieces, C88_queries, C88_query_order_refuted, C88_right_slope_refuted, C88_slope, C88_smooth_refuted, C89_counts, C89_dies, C89_estimate, C89_finish_race_refuted, C89_format, C89_numbers, C89_orderly, C89_sixty_refuted, C89_snapshot, C89_steady_refuted, C90_casa, C91_convert, C91_cut_raises, C91_cut_refuted, C91_rejects, C95_accepts_refuted, C95_elements, C95_missing_inputs, C95_no_outputs, C95_same_as_cpu, C95_unknown_output, C95_verdict, C96_beam, C96_beam_frequencies, C96_beam_refuted, C96_convert, C96_convert_other_shapes, C96_convert_refuted, C96_feeds, C96_memoized, C96_phase, C96_predict, C97_bad_downloads, C97_complete_cub, C97_complete_trove, C97_interrupted_cub_refuted, C97_interrupted_trove_refuted, C97_kept, C97_lock, C97_mkdtemp_refuted, C97_present_cub, C97_present_trove, C97_recovery, C97_returned, C97_returned_cub, C97_returned_trove, C97_two_processes_removed_refuted, C97_two_processes_unverified_refuted, C97_verified, C98_axes, C98_axes_refuted, C98_product_matrix, C98_product_matrix_refused, C98_product_sources_refused, C98_product_terms_refused, C98_product_vector, C98_product_vector_refused, C98_source_types

**`ClassicalDedekindReals.sig_forall_dec`** (21 theorems): C67_unknown_to, C72_completes, C72_degrid, C72_degrid_accepted, C72_negative_streams_refuted, C73_arguments, C73_dirty_value, C73_hessian_value, C73_model_value, C73_no_bands, C73_passed_on, C73_residual, C84_backend, C84_field_centre, C90_field_centre, C90_parangles, C92_corr_dims, C92_empty, C92_other_corrs, C92_types, C93_ends

**`ClassicalDedekindReals.sig_forall_dec`, `FunctionalExtensionality.functional_extensionality_dep`** (94 theorems): C106_centre, C112_centre, C112_mask, C112_midpoints, C113_chunked, C113_gamma, C113_predict, C114_row_times, C114_width, C116_converges, C116_cycle, C116_default_iterations_refuted, C116_gain_refuted, C116_improves, C120_corrupt, C120_residual, C120_round_trip, C121_components, C121_recovers, C121_single, C121_wide_beam_refuted, C122_flux, C122_residual, C122_total, C122_unrounded, C124_circular_roundtrip, C124_from_circular, C124_from_linear, C124_linear_roundtrip, C124_to_circular, C124_to_linear, C125_image, C125_low_threshold_refuted, C127_exact, C127_stack, C128_exact, C128_gather, C128_packed, C34_bracket, C34_interpolates, C34_unique, C35_weights, C43_chunked_jhj, C43_chunked_jhr, C43_declared_shape_refuted, C43_jhj, C43_jhj_and_jhr, C43_jhr, C44_flux_conserved, C44_point_psf, C44_psf_centre_refuted, C45_absolute_threshold_refuted, C45_at_most_niter_refuted, C45_errors, C45_run, C46_absolute_refuted, C46_empty, C46_first_refuted, C46_peak, C65_packed_gather, C65_packed_scatter, C65_placement, C65_tap_position, C66_adjoint, C66_constant, C66_gather, C66_nearest, C66_nearest_outside_refuted, C66_scatter, C67_from_correlations, C67_missing_policy_refuted, C67_roundtrip, C67_short_view, C67_to_correlations, C67_unknown_from, C72_any_schedule, C72_run_again, C72_run_again_in_place_refuted, C72_whole, C73_adjoint, C73_chunked_dirty, C73_chunked_hessian, C73_chunked_model, C73_chunked_residual, C73_hessian_symmetric, C85_edge, C90_positions_refuted, C92_base_only_refuted, C92_flat_four, C92_flat_four_refuted, C92_measurement, C92_one_by_one, C92_same_as_cpu, C92_sum

**`ClassicalDedekindReals.sig_forall_dec`, `ClassicalDedekindReals.sig_not_dec`, `FunctionalExtensionality.functional_extensionality_dep`** (220 theorems): C100_accepted, C100_default_band, C100_refused, C100_round_trip, C100_single_channel_refuted, C100_step_refuted, C101_columns_refuted, C101_interpolated, C101_interpolation_refused, C101_mirrored, C101_one_pixel_refuted, C101_refused, C101_script_channels_refuted, C101_script_refuted, C101_visibilities, C102_image_transform, C102_image_transform_2x2, C102_unit_gains, C102_unit_gains_refuted, C102_unpolarised, C106_convolution, C106_shape, C108_axes_exchanged_refuted, C108_bounds, C108_centre_refuted, C108_directory_refuted, C108_refused, C108_value, C109_phases, C109_refused, C109_sky_distance_refuted, C109_unit_modulus, C112_area, C112_axes_swapped, C112_box, C112_box_pixels, C112_circumference, C112_first_corner, C112_moved, C112_pixels_refuted, C112_reversed, C112_split, C114_frequencies, C114_row_columns, C114_single_sample, C114_visibilities, C115_constants, C115_double, C115_exact, C115_radicand, C116_sampled, C117_channels, C117_frequencies, C117_frequencies_refuted, C117_two_steps, C117_unweighted_refuted, C117_widths, C118_clean, C118_dirty_is_convolution, C118_psf, C118_w_refuted, C123_few_baselines_refuted, C123_full_clean, C123_full_coverage, C123_sources, C125_sources, C125_visibilities, C127_gridder, C30_added_uvw, C30_conventions_conjugate, C30_negated_uvw, C30_phase_casa, C30_phase_centre, C30_phase_fourier, C30_unit_modulus, C30_unknown_convention, C31_basis_change, C31_basis_change_unitary, C31_circular, C31_invalid, C31_linear, C31_linear_compose, C31_linear_entries, C32_assertions, C32_rotates_iff, C32_rotation_refuted, C32_values, C35_bounds, C35_chunked_beam, C35_chunks, C35_long_map_refuted, C35_node, C35_small_cube, C35_value, C42_chunks, C42_is_corrupt_vis_of_prediction, C42_unchunked_axes, C42_values, C43_jacobian, C44_beam_peak, C44_beam_shape, C44_restore, C44_restore_with_psf, C47_adjoint, C47_im_to_vis_linear, C47_vis_to_im_linear, C47_vis_to_im_value, C48_chunk_checks, C48_chunks, C48_corr_chunks_refuted, C48_flagged, C48_rows, C48_unknown_convention, C49_chunk_checks, C49_chunks, C49_sum_over_pixels, C49_unknown_convention, C55_aligned, C55_bad_header, C55_declination, C55_defaults, C55_not_an_angle, C55_right_ascension, C55_signs_refuted, C55_trailing_refuted, C55_values, C55_written_file, C55_wrong_count, C64_behind_refuted, C64_components, C64_lm_components, C64_unit_sphere, C68_behind_refuted, C68_factor, C68_modulus, C68_policies, C68_same_centre, C68_undo, C69_matrix, C69_policies, C69_rotate_length_refuted, C69_rotate_reads_outside, C69_wlinapprox, C70_additive, C70_checks, C70_chunked_channels_refuted, C70_chunked_mean, C70_chunked_sum_refuted, C70_facets, C70_linear, C70_second_facet_refuted, C70_value, C71_any_order, C71_checks, C71_chunked, C71_rotate_order_refuted, C71_row_block, C71_value, C73_hessian_image_chunks_refuted, C73_model_image_chunks_refuted, C73_offset_refuted, C73_one_band_block_refuted, C73_one_channel_block_refuted, C74_distance, C74_metric, C74_mixed, C74_numbers, C74_positive, C74_spectrum_errors, C74_too_few, C74_too_many_refuted, C77_accepted, C77_argument_name_refuted, C77_argument_object, C77_axis, C77_count, C77_grids, C77_grids_found, C77_irregular_degrees_refuted, C77_missing_cards, C77_naxis, C77_signed_ctype_refuted, C85_value, C86_centre, C86_detaper_dft, C86_detaper_fft, C86_detaper_separable, C86_odd_support, C86_shape, C86_symmetric, C86_unit_sum, C90_components_transform, C90_feed, C90_feed_scalar, C90_feed_value, C90_jax, C90_phase_delay, C90_transform, C93_feed, C93_feed_cpu, C93_feed_raises, C93_phase, C93_phase_cpu, C93_strided_refuted, C94_beam, C94_lockstep_refuted, C94_many_channels_refuted, C94_raises, C94_short_row_refuted, C98_beam_refused, C98_beam_value, C99_cell_size, C99_documented_refuted, C99_empty, C99_refused, C99_single, C99_types, C99_zero_array, C99_zero_float, C99_zero_wavelength

**`ClassicalDedekindReals.sig_forall_dec`, `ClassicalDedekindReals.sig_not_dec`, `Classical_Prop.classic`, `FunctionalExtensionality.functional_extensionality_dep`** (124 theorems): C100_cube, C102_components, C102_points, C105_calibration_needs_four, C105_calibration_shapes, C105_centre_explained, C105_chunks_irrelevant, C105_gains_from_file, C105_gains_from_file_refused, C105_refused, C105_residual_at_true_gains, C105_simulated, C105_single_source_unexplained, C105_true_gains_explain_refuted, C106_beam, C106_beam_raises, C106_beam_shape, C106_degrees_refuted, C106_half_maximum_refuted, C106_narrow_beam_raises, C106_odd_image_refuted, C106_restored, C106_restored_elsewhere, C107_any_shape_refuted, C107_beam_file, C107_few_bands, C107_files, C107_maps, C107_missing_card, C107_outcome, C107_power_law, C107_refused, C107_threads_irrelevant, C113_chunks_refuted, C113_double, C113_order_refuted, C113_single, C114_single_weighted_refuted, C114_width_refuted, C115_horizon_refuted, C115_im_to_vis, C115_phase_delay, C115_vis_to_im, C119_converges, C119_directions_refuted, C119_large_data_refuted, C120_zero_residual_refuted, C122_double, C122_exact_refuted, C124_double, C124_weak_refuted, C127_double, C127_order_refuted, C128_double, C33_chunks, C33_coefficient_chunks_refuted, C33_conjugate_symmetry, C33_raises, C33_superposition, C33_values, C33_zero_extent, C43_angle, C43_caller_arrays, C43_common_phase, C43_exact_gains_kept, C43_inputs_unchanged_refuted, C43_iterations, C43_other_modes, C43_pure_phases, C52_envelope, C52_even, C52_frequency_scaling, C52_origin, C52_range, C52_round, C53_chunks, C53_dimensions, C53_long_list_refuted, C53_numpy_reference, C53_pol_chunks_refuted, C53_reference_frequency, C53_spi_chunks, C53_unknown_base, C53_values, C54_negative_coefficient_refuted, C54_numpy_reference, C54_raises, C54_reference_frequency, C54_shapes, C54_values, C56_channel_chunks_refuted, C56_chunks, C56_derivatives, C56_exact_data, C56_iterations, C56_normal_equations, C56_raises, C56_stationary, C56_variances, C64_across_pole_refuted, C64_chunks, C64_lm_inverse, C64_lm_round_trip, C64_round_trip, C64_shapes, C74_covariance, C74_decreasing, C74_spectrum, C85_chunks, C85_dde, C85_poly_chunks_refuted, C90_components, C90_gaussian, C90_spectra, C90_spectra_first, C90_spectra_raises, C90_spi_chunks_refuted, C98_correlations_refused, C98_empty_sky, C98_inverted, C98_model_data, C98_model_data_beam, C98_source_order, C98_unknown_source
