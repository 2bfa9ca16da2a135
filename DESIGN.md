# Formal model of JanThorbecke/OpenSource in Rocq (Coq 8.16.1)

## Approach

* The C sources in /repo are transcribed by hand, function by function, to total
  Gallina functions.  Every model definition carries a comment with the file and
  lines it models and the simplifications made.
* C integers are `Z` with explicit wrap-around (`mod 2^w`) where the C type is
  unsigned.  Signed overflow, out-of-range memory access and the other kinds of
  undefined behaviour are distinct outcomes (`None`, or a sticky `fault` flag),
  and the theorems state when they cannot occur.
* Floating-point data is abstract: numerical kernels are modelled over an
  arbitrary commutative ring or over the rationals/reals (exact arithmetic).
  Rounding is therefore *not* modelled, except where stated (`optncr`).
* Threads: an OpenMP loop is a list of per-iteration actions on a shared state;
  a schedule is any permutation / interleaving of the actions.
* Files: `*.v` model files hold definitions only, `*Proofs.v` files lemmas,
  `Properties*.v` the property theorems, each closed by `exact`, followed by
  `Print Assumptions` and a concrete non-vacuity `Example`.
* A false property is kept in view: the theorem stating its negation with a
  witness is named `..._refuted`, and what does hold is proved separately.

## Plan per property

| id | modelled | proof |
|----|----------|-------|
| C01-C05 | `zfp/src/inline/bitstream.c`, all functions, word size 8/16/32/64 | abstraction of a stream to a list of bits; write appends, read consumes |
| C06 | `int2uint`, `uint2int` | word-level: xor/add identities by bit induction |
| C07 | `perm_1..4`, `fwd_order`, `inv_order` | computation on tables + generic permutation lemma |
| C08 | `fwd_lift`, `inv_lift`, `fwd_xform`, `inv_xform` (d=1..4) | linear arithmetic over floor divisions; error propagation |
| C09-C12 | `encode_ints`, `decode_ints`, `encode_many_ints`, `decode_many_ints` | refinement to a list-of-bits coder, induction on bit planes |
| C13-C14 | integer `encode_block`, `decode_block` | composition |
| C15 | `zfp_stream_maximum_size` | worst-case length of the bit-plane coder |
| C16-C17 | gather/scatter, pad_block, block loops | frame conditions, induction on block counts |
| C18-C20 | header, mode and parameter functions of `zfp.c` | bit-field arithmetic |
| C21 | promote/demote | arithmetic |
| C22 | chunking of `omp.c`, `parallel.c` | concatenation over a partition, permutation invariance |
| C23-C24 | `cache.h`, array encode/decode | refinement to a map over all histories |
| C25-C28 | `getpars.c`, `atopkge.c` | induction over argument lists / strings |
| C29-C30 | `optnumber.c`, `npfa*` | real logarithm bounds; table search |
| C31-C33 | `kiss_fft.c`, `pfafft.c`, `lib_fft.c` over the reals | decimation in time by induction on the factors; prime-factor index map (Chinese remainder) by induction on the passes |
| C34 | `xt2wx.c`, `wx2xt.c`, `xt2wkx.c`, `wkx2xt.c` on top of the DFT of a vector | index permutations, shift of a periodic sum |
| C59 | `pfarc`, `pfacr` of `pfafft.c` | even/odd split, invariant of the twiddle loop from both ends |
| C35-C36, C41, C42 | time loop bookkeeping of `fdelmodc.c` | arithmetic over step counters |
| C37-C40 | FD kernels | index bounds, permutation invariance, linearity, support growth |
| C50-C52 | FD kernels, boundaries and sources composed to a step | value of every cell after the step from the conflict-free loops |
| C43 | `name_ext` | string lemmas |
| C53-C55 | shot loop, `getRecTimes.c`, snapshots | shots as a fold; exact evaluation of the recording expressions on affine fields; boxes around the reads |
| C47-C49 | float/double blocks `encodef.c`, `decodef.c`, `codecf.c`: values as integers in units of the smallest denormal, rounding as exact integer function | error analysis through the integer block, generic array lemma |
| C44-C46 | `applyMute`, `synthesisPositions`, `synthesis` | interval arithmetic, sorting, commutation |
| C56 | iteration loop of `marchenko.c` | induction on the iterations, alternating sums, linearity of the integral |
| C60-C62 | `readData.c`, `writeData.c`, `getFileInfo.c`, positions and reciprocity of `readShotData.c`, on files as byte lists with a position | invariant of the trace loop; unique division into records; tables as filtered lists |
| C63-C64 | `polint.c`, `spline.c` over the rationals | Neville recursion and uniqueness of interpolating polynomials; elimination of the tridiagonal system in both directions |
| C65-C68 | `interpolation.c`, `linearint.c`, `sinuousint.c`, `grid.c`, `gridabove.c`, the layer loop, smoothing and reflectivity of `makemod.c`, over the rationals | loop invariants over columns; induction over the list of layers; weighted means |
| C69-C73 | `utils/fconv.c`: convolution, correlation, deconvolution, coherence and the loop over the gathers, over the reals | convolution theorem for the discrete Fourier transform proved from its orthogonality; loop invariants; induction over the list of gathers |
| C74-C75 | `fdelmodc/readModel.c` and the layout of the grids in `getParameters.c`, over the reals | loop invariants for rectangles of the grids: each loop sets one rectangle from a function of the position |
| C76-C78 | relaxation times of `fdelmodc/readModel.c`, `viscoacoustic4.c`, `viscoelastic4.c`, over the reals | complex modulus of the standard linear solid; induction over the time steps: the recursion of stress and memory variable is the convolution with the relaxation function |
| C79-C80 | `fdelmodc/recvPar.c`, over the rationals, with contents of malloc memory as a parameter, outcomes stop / fault / done | invariants of the two passes over the lines and of the stores; witnesses for the exceptions |
| C81-C82 | perfectly matched layers of the acoustic scheme in `fdelmodc/boundaries.c`, over the reals, at addresses of the arrays, with the static memory variables | loop lemma for one point; closed form of the memory by induction on the calls; storage-function argument for the energy |
| C83-C84 | source injection, `fdelmodc/applySource.c` with the delays of `getParameters.c`, over the reals, as a list of increments at addresses of the arrays | sum of the increments at one address; case analysis over types and orientations; identities of difference patterns |
| C85-C86 | source signatures, `fdelmodc/defineSource.c`, `spline3.c` and the sampling of `getParameters.c`, over the reals with the transforms of FftSpec.v | spectra (C69 machinery), splitting of the finer transform, invariants of the searches, field identities for the cubic |
| C87-C88 | operations on gathers, `utils/basop.c`, over the reals with the transforms of FftSpec.v | loops over rows in closed form, the signal of a spectrum (C69 machinery), Hermitian part of the analytic signal |
| C89-C90 | free surfaces of the elastic schemes (`boundariesV` in `fdelmodc/boundaries.c`) and the scan for the surface in `fdelmodc.c` | loops over distinct addresses in closed form, any order of the columns; searches by induction on the rows |
| C91-C92 | bodies in makemod (`utils/diffraction.c`, `utils/elipse.c`), selection of sources in `corrvir/corrvir.c` | lists of cells characterised by membership; last writer wins by induction on the points |
| C93 | virtual traces of `corrvir/corrvir.c` | loops to sums by induction; spectrum of a correlation, inverse transform, no wrap-around because the transform is twice as long |
| C94-C95 | `utils/smooth.c`, `utils/extendModel.c`, `utils/truncate.c` | loops over cells to closed forms by induction; windows as sums with indicator functions |
| C96 | `utils/padmodel.c` | assignments in program order; invariant on the cells already filled |
| C97 | `utils/readSnapData3D.c`, `utils/reshape_su.c`, `utils/snap2shot.c` | nested loops as one list of index tuples; the addresses are one to one |
| C98 | `utils/kxwfilter.c` | loops over the filter array; floor arithmetic for begin and end of the taper |
| C99 | `utils/mutesnap.c` | loop over pairs of samples, invariant on the samples already muted; lists of the indices read and written |
| C57-C58 | padding in `readShotData.c`, rotation in `marchenko.c` | loops as folds over updates |

## Trusted base

* Coq 8.16.1: the kernel (including its virtual machine, used by `vm_compute` on
  closed terms), the standard library, and the parser and printer through which
  the statements are read.  No plugin, no axiom of our own, no functor or module
  type, no admitted goal.  Nothing from mathcomp, std++, Iris, Flocq or Coquelicot
  is used.
* The transcription.  The model was written by hand from the text of /repo, which
  was never compiled or run.  Every definition cites the lines it stands for; a
  difference between the C text and its transcription is not detected by Coq.
* The meaning of the C text assumed in the transcription: 32-bit `int`/`uint`,
  64-bit `size_t`, two's complement, arithmetic right shift of negative integers
  (zfp relies on it), little-endian headers, `malloc`/`calloc` that succeed,
  assertions enabled.
* The specifications: `*Spec.v` and the definitions at the head of each
  `Properties*.v` file.  They are what the theorems mean.

### Print Assumptions

* *Closed under the global context* (no axioms): all theorems of MANIFEST.json that are not listed below (267 theorems).
* `ClassicalDedekindReals.sig_forall_dec`: C96_edges, C96_sideways, C96_constant, C96_in_bounds, C99_start.
* `ClassicalDedekindReals.sig_forall_dec`, `FunctionalExtensionality.functional_extensionality_dep`: C74_parameters, C74_zero_density, C74_in_bounds, C75_rigidity, C75_rigidity_refuted, C75_vertical_pml, C75_default_pml_refuted, C77_pressure, C77_frame, C77_relaxes, C77_fades, C77_frequencies_refuted, C78_stresses, C78_frame, C78_last_column_refuted, C78_last_row_refuted, C83_wavelet_in_bounds, C83_random_signal_refuted, C83_plane, C83_forces_refuted, C83_rotation_at_top_refuted, C86_cubic, C86_first_crossing, C86_last_crossing, C86_signal, C86_room, C86_short_signal_refuted, C88_rotation_time_refuted, C88_rotation_seconds, C88_trace_average, C88_average, C89_condition, C89_top, C89_right, C89_bottom, C89_left, C89_sides, C89_no_free_side, C89_history_lost_refuted, C89_flat_any_order, C89_step_order_refuted, C90_source, C90_receiver, C90_receiver_depth_refuted, C90_surface, C90_last_column_refuted, C90_empty_column_refuted, C91_depths, C93_correlate, C94_smooth, C94_bounds, C95_extend, C95_position, C96_depth_refuted, C99_maximum, C99_tolerance.
* `ClassicalDedekindReals.sig_forall_dec`, `ClassicalDedekindReals.sig_not_dec`, `FunctionalExtensionality.functional_extensionality_dep`: C44_cosine_complement, C44_cosine_range, C31_transform, C31_inverse, C31_prime_factor, C31_prime_factor_inverse, C32_history, C32_one_direction, C32_parallel_forward, C32_directions_refuted, C32_parallel_backward_refuted, C33_complex, C33_real, C33_back, C33_round_trip, C33_round_trip_odd, C33_even_refuted, C34_xt2wx, C34_wx2xt, C34_wx_round_trip, C34_xt2wkx, C34_wkx2xt, C34_wkx_round_trip, C59_forward, C59_back, C59_round_trip, C69_convolution, C69_no_wrap_around, C69_damping, C69_wrap_around_refuted, C70_correlation, C70_no_wrap_around, C70_power, C70_cor3, C70_cor3_refuted, C70_negative_lags_refuted, C71_deconvolution, C71_inverse, C72_coherence, C72_unit_amplitude, C72_unset_factor_refuted, C73_first_gather, C73_later_gathers, C73_count, C73_regular, C73_written, C73_ntfft_refuted, C73_repeated_gather_refuted, C73_written_refuted, C76_quality_factor, C76_shear_quality_factor, C76_small_shear_refuted, C76_in_bounds, C76_elastic_frequencies_refuted, C83_injection, C83_window_refuted, C83_outside_refuted, C84_shear_potential, C84_compressional_potential, C84_shear_fourth_order, C84_shear_order_refuted, C85_unchanged, C85_spectrum, C85_interpolated, C85_time_axis_refuted, C85_zero_frequency, C85_small_values, C85_single_wavelet, C85_weak_wavelet_refuted, C86_random_signal, C87_filters, C87_shift_samples, C87_delay, C87_highest_frequency_lost_refuted, C87_counterparts, C88_hilbert, C88_hilbert_scale_refuted, C88_modulus, C88_envelope, C88_envelope_constant_refuted, C88_reversal, C88_reversal_header_refuted, C91_circle, C91_ellipse, C91_diffraction, C91_elipse, C91_no_density_refuted, C91_diffractor_safe, C91_diffractor_outside_refuted, C93_coherence, C93_cutoff_refuted, C93_stack, C93_band, C93_virtual, C93_few_sources, C98_factors, C98_gain, C98_in_bounds, C98_pass, C98_nyquist, C98_angle, C98_basop, C98_frequencies, C98_rows, C98_aliased_refuted, C99_center.
* `ClassicalDedekindReals.sig_forall_dec`, `ClassicalDedekindReals.sig_not_dec`, `Classical_Prop.classic`, `FunctionalExtensionality.functional_extensionality_dep`: C29_logarithm, C81_velocities, C81_pressure, C81_coefficients_in_bounds, C81_symmetric_refuted, C82_energy, C82_static, C82_reflection.

These are the axioms on which the real numbers of the standard library are built.

### What is modelled

| code | model | level |
|------|-------|-------|
| `zfp/src/inline/bitstream.c` | Bitstream.v | exact, bit level; memory faults and undefined shifts are outcomes |
| `zfp/src/template/{encode,decode}.c` (coder), `codec*.c`, `encode1-4.c`, `decode1-4.c`, `encodei.c`, `decodei.c` | ZfpCodec.v, ZfpXform.v | exact; signed overflow is an outcome |
| `encodef.c`, `decodef.c`, `codecf.c` | ZfpFloat.v | finite floats and doubles exactly (integer multiples of the smallest denormal), conversions rounded as in C; NaN and infinity not modelled |
| gather, scatter, padding, serial and OpenMP traversal, chunk streams | ZfpArray.v, ZfpPar.v | exact; one block coding is one step of a thread |
| `zfp/src/zfp.c` (modes, parameters, headers, promotion, maximum size) | ZfpApi.v | exact |
| `zfp/array/zfp/cache.h`, `zfparray{,1,2,3}.h` | ZfpCache.v | get, set, flush, iteration through the cache, resize of the cache; not the reference, pointer and iterator wrappers, deep copies |
| `utils/getpars.c`, `atopkge.c` | GetPars.v | exact on byte strings; `atof`-style conversion as exact decimal; environment and help texts not modelled |
| `FFTlib/kiss_fft.c`, `pfafft.c` (`pfacc`, `pfarc`, `pfacr`, `npfa*`), `lib_fft.c`, `optnumber.c`, `xt2wx.c` family | KissFft.v, Pfa.v, LibFft.v, FftSize.v, FftLayout.v | real arithmetic, static state kept; `pfa2rc`, `pfa2cr`, `fft_mayer.c`, vendor library branches not modelled |
| `fdelmodc/`: acoustic and elastic kernels of order 2, 4, 6, 16, `boundaries.c` (taper), `applySource.c`, `getRecTimes.c`, `writeSnapTimes.c`, `getBeamTimes.c`, `name_ext.c`, `fileOpen.c`, the time and shot loops | FdKernels.v, FdMachine.v, FdScheme.v, FdOutput.v | any arithmetic (ring laws only where linearity is claimed); OpenMP teams with arbitrary schedules; not PML, viscous kernels, topography, model file input |
| `marchenko/`: `applyMute*.c`, `synthesis.c`, `marchenko.c` iteration and Green's functions, padding, rotation, tapers | Marchenko.v | exact arithmetic; not the 3D version |
| `utils/readData.c`, `writeData.c`, `getFileInfo.c`, positions and reciprocity of `marchenko/readShotData.c` | SuFile.v | bytes; positions as rationals |
| `utils/makemod.c` (layers, smoothing, reflectivity), `interpolation.c`, `polint.c`, `spline.c`, `linearint.c`, `sinuousint.c`, `grid.c`, `gridabove.c` | Makemod.v | rationals; sine and cosine arbitrary functions; not the fractal, random and rough options |
| `utils/fconv.c` | Fconv.v | reals; the transforms of the gathers as in FftLayout.v; reading and writing of the files not modelled |
| `fdelmodc/readModel.c`, layout of the grids in `fdelmodc/getParameters.c` | ReadModel.v | reals; not the reading of the files and top=5 |
| relaxation times of `fdelmodc/readModel.c`; `viscoacoustic4.c`, `viscoelastic4.c` | Visco.v | reals; the stresses and memory variables, with arbitrary velocities |
| `fdelmodc/recvPar.c` without the ellipse | Recv.v | rationals; memory from malloc arbitrary |
| perfectly matched layers (acoustic) of `fdelmodc/boundaries.c` | Cpml.v | reals; not the elastic layers |
| source injection of `fdelmodc/applySource.c`, delays of plane waves and random signals of `getParameters.c` | Source.v | reals; not the side of kind 5; not `defineSource.c` |
| source signatures of `fdelmodc/defineSource.c` (`defineSource`, `randomWavelet`) and `spline3.c` | Wavelet.v | reals; not the distribution of the random numbers, not the amplitude distribution of sources, not the file reading |
| operations of `utils/basop.c` (`timeShift`, `phaseRot`, `timeDiff`, `sqrtk`, `div_sjom`, `div_som`, `divk`, `hilbertTrans`, `Envelope`, `conjugate`, `timeRotate`, `rma`, `rmat`, `rcabs`) | Basop.v | reals; not the operations over space (`kx`, ghosts, powers), not the file reading |
| free surfaces: end of `boundariesV` (`fdelmodc/boundaries.c:1661-1820`), surface scan and sinking (`fdelmodc/fdelmodc.c:470-508`) | FreeSurface.v | reals; not the loop over vertical edges (lines 1702-1740) |
| `utils/diffraction.c`, `utils/elipse.c` | Bodies.v | reals; gradients (random variations) zero |
| virtual traces of `corrvir/corrvir.c`, `corrvir/correlate.c` | Corrvir.v | reals, transforms of FftSpec.v; not reading, headers and the division over threads |
| `utils/smooth.c` (`r_smooth`), `utils/extendModel.c`, `utils/truncate.c` | Smooth.v | reals; `pow` arbitrary; not reading, and of the headers only position and number of samples |
| `utils/padmodel.c` | Padmodel.v | any values; not the headers |
| `utils/readSnapData3D.c`, `utils/reshape_su.c`, `utils/snap2shot.c` | ReshapeSpec.v, Reshape.v | any values; not the headers, not a file that ends early |
| `utils/kxwfilter.c` | Kxwfilt.v | reals instead of floats; not the transforms and the copies around the loop over the frequencies |
| `utils/mutesnap.c` | Mutesnap.v | reals instead of floats; the samples of one point; not the ray times, the headers and the check of the sizes |

### What is not modelled

Rounding of floating-point arithmetic outside zfp; input and output errors other
than short reads; timing and printed messages; the programs `raytime`, `raytime3d`,
`extrap`, `MDD`, `fdemmodc`, `fdacrtmc`, `vmar`, `marchenko3D`, `makemod` apart from the
functions named above (several of them contain copies of the modelled files);
Fortran sources, scripts and the CUDA parts of zfp.
