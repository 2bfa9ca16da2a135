{"id": "C01", "title": "Bit stream round trip", "statement": "Whatever sequence of single bits and n-bit values (0<=n<=64) is appended to a rewound bit stream, after a flush and a rewind the same sequence of reads returns exactly the low n bits of every value, in order.", "quantifier": "every sequence of write operations, every value, every width 0..64, every word size 8/16/32/64", "why_tests_cant": "the carry of bits between the word buffer and memory depends on the running offset; the number of operation sequences is unbounded", "anchors": ["zfp/src/inline/bitstream.c: stream_write_bit, stream_write_bits, stream_read_bit, stream_read_bits, stream_flush, stream_rewind"]}
{"id": "C02", "title": "Multi-bit write/read equals bit-at-a-time", "statement": "Writing n bits of a value appends exactly its n low bits (least significant first), whatever its other bits are, and returns the value shifted right by n; reading n bits returns the next n bits and advances by n.", "quantifier": "every stream state, value and n in 0..64, every word size", "why_tests_cant": "needs all alignments of the buffered bits with n, and all values with garbage high bits", "anchors": ["zfp/src/inline/bitstream.c: stream_write_bits, stream_read_bits, stream_write_bit, stream_read_bit"]}
{"id": "C03", "title": "Stream positions, seek, skip, pad, align, flush", "statement": "The write position advances by exactly the number of bits appended (pad appends n zero bits, flush pads to the next word boundary and is idempotent); seeking the writer to an earlier bit offset keeps exactly the bits before that offset; seeking the reader to an offset makes the next read start at that bit; skip and align advance the reader by the documented amount.", "quantifier": "every stream content and offset, every word size", "why_tests_cant": "positions and contents are unbounded", "anchors": ["zfp/src/inline/bitstream.c: stream_wtell, stream_rtell, stream_wseek, stream_rseek, stream_skip, stream_pad, stream_align, stream_flush"]}
{"id": "C04", "title": "Writer memory safety and frame", "statement": "Writing k bits from a rewound stream and flushing stores only to the first ceil(k/wsize) words of the buffer; no word outside is modified and no access is out of range when the buffer has that many words.", "quantifier": "every operation sequence and buffer capacity", "why_tests_cant": "absence of an out-of-range store must hold for every sequence", "anchors": ["zfp/src/inline/bitstream.c: stream_write_word, stream_pad, stream_flush, stream_capacity"]}
{"id": "C05", "title": "Stream copy", "statement": "stream_copy(dst,src,n) appends to dst exactly the next n bits of src and advances src by n, for every n including multiples of the word size.", "quantifier": "every source/destination alignment and every n", "why_tests_cant": "n is unbounded; the loop boundary n>wsize matters at multiples of the word size", "anchors": ["zfp/src/inline/bitstream.c: stream_copy"]}
{"id": "C06", "title": "Negabinary map is a bijection", "statement": "Conversion of two's complement coefficients to negabinary and back is the identity in both directions for 32- and 64-bit words, and a value whose top k negabinary digits are kept is recovered with an error below the weight of the dropped digits.", "quantifier": "every 32-bit and 64-bit word", "why_tests_cant": "2^64 inputs", "anchors": ["zfp/src/template/encode.c: int2uint", "zfp/src/template/decode.c: uint2int", "zfp/src/traitsi.h, traitsl.h: NBMASK"]}
{"id": "C07", "title": "Coefficient reordering is a permutation by total sequency", "statement": "The 1-, 2-, 3- and 4-d orderings used by encoder and decoder are permutations of the 4^d coefficients, decoder order inverts encoder order, and coefficients are visited in non-decreasing total degree.", "quantifier": "every block of 4^d coefficients", "why_tests_cant": "must hold for every block content; a wrong table entry only shows for particular data", "anchors": ["zfp/src/template/codec2.c, codec3.c, codec4.c: perm_2, perm_3, perm_4", "zfp/src/template/encode.c: fwd_order", "zfp/src/template/decode.c: inv_order"]}
{"id": "C08", "title": "Decorrelating transform is a near-inverse pair without overflow", "statement": "For block values that leave the documented two guard bits, the forward transform never overflows the integer type, and for values that additionally stay a few units (0, 5, 21, 81 for d = 1..4) below that limit the inverse of the forward transform does not overflow either and returns every value within a fixed small error (2, 10, 40, 153), along one line and for full d-dimensional blocks.", "quantifier": "every block of 4^d integers within the guard-bit range, every d", "why_tests_cant": "all 2^128 4-vectors; the rounding errors of shifts interact", "anchors": ["zfp/src/template/encode.c: fwd_lift", "zfp/src/template/decode.c: inv_lift", "zfp/src/template/encode1.c..encode4.c: fwd_xform", "zfp/src/template/decode1.c..decode4.c: inv_xform"]}
{"id": "C09", "title": "Embedded coding is lossless when the budget suffices", "statement": "Decoding an encoded group of up to 64 coefficients with the same precision limit and a sufficient bit budget returns every coefficient with exactly its top maxprec bit planes, the others zero.", "quantifier": "every coefficient vector of length 1..64, every precision limit, both word widths", "why_tests_cant": "data dependent group testing over unboundedly many coefficient patterns", "anchors": ["zfp/src/template/encode.c: encode_ints", "zfp/src/template/decode.c: decode_ints"]}
{"id": "C10", "title": "Encoder and decoder consume the same number of bits, never more than maxbits", "statement": "For every bit budget and precision, the encoder appends exactly the number of bits it reports, at most maxbits, and the decoder run on that output with the same parameters consumes exactly as many.", "quantifier": "every coefficient vector, maxbits and maxprec", "why_tests_cant": "the truncation point can fall in any state of the run-length coder", "anchors": ["zfp/src/template/encode.c: encode_ints, encode_many_ints", "zfp/src/template/decode.c: decode_ints, decode_many_ints"]}
{"id": "C11", "title": "Progressive prefix property", "statement": "The code for a smaller bit budget is a prefix of the code for a larger one, and decoding a truncated code gives coefficients that agree with the originals on every completely coded bit plane.", "quantifier": "every coefficient vector and every pair of budgets", "why_tests_cant": "all truncation points of all data", "anchors": ["zfp/src/template/encode.c: encode_ints", "zfp/src/template/decode.c: decode_ints"]}
{"id": "C12", "title": "Long-block coder agrees with short-block coder", "statement": "For groups of at most 64 coefficients the coder for large blocks emits the same bits and decodes the same values as the coder for small blocks.", "quantifier": "every coefficient vector of length 1..64, every budget and precision", "why_tests_cant": "two differently structured loops must agree on all data", "anchors": ["zfp/src/template/encode.c: encode_ints, encode_many_ints", "zfp/src/template/decode.c: decode_ints, decode_many_ints"]}
{"id": "C13", "title": "Integer block size limits and stream synchronisation", "statement": "Every coded integer block occupies at least minbits and at most maxbits bits (exactly maxbits in fixed-rate mode) and decoding a block leaves the reader exactly at the start of the next block.", "quantifier": "every block and every minbits<=maxbits, maxprec", "why_tests_cant": "random access and multi-block streams rely on it for every block", "anchors": ["zfp/src/template/encodei.c: encode_block", "zfp/src/template/decodei.c: decode_block", "zfp/src/template/encode.c", "zfp/src/template/decode.c"]}
{"id": "C14", "title": "Integer block near-lossless round trip", "statement": "An integer block within the guard-bit range coded at full precision with a sufficient budget is decoded with a per-value error no larger than the rounding error of the transform.", "quantifier": "every block of 4^d integers in range", "why_tests_cant": "composition of transform, ordering, negabinary and embedded coding over all data", "anchors": ["zfp/src/template/encode.c: encode_iblock", "zfp/src/template/decode.c: decode_iblock"]}
{"id": "C15", "title": "Maximum compressed size is an upper bound", "statement": "The size returned by zfp_stream_maximum_size is never smaller than the bytes produced by compressing any array of that shape with those parameters.", "quantifier": "every array content, every shape, every parameter set", "why_tests_cant": "a buffer overrun for one adversarial input is enough to break it", "anchors": ["zfp/src/zfp.c: zfp_stream_maximum_size, zfp_compress", "zfp/src/template/compress.c"]}
{"id": "C16", "title": "Strided gather/scatter", "statement": "Gathering a (partial) block from a strided array and scattering it back changes nothing; scattering writes exactly the in-range elements of the block and no other; padding of a partial block repeats in-range values only.", "quantifier": "every stride (also negative), block extent 1..4 per dimension, d=1..4", "why_tests_cant": "unbounded strides and positions; frame condition over all of memory", "anchors": ["zfp/src/template/encode1.c..encode4.c: gather, gather_partial", "zfp/src/template/decode1.c..decode4.c: scatter, scatter_partial", "zfp/src/template/encode.c: pad_block"]}
{"id": "C17", "title": "Block traversal covers the array exactly once", "statement": "Compressing and decompressing an nx*ny*nz(*nw) array visits every element in exactly one block, in the same order on both sides, and decompression overwrites every element of the array and nothing else.", "quantifier": "every array shape", "why_tests_cant": "shapes are unbounded, including extents that are not multiples of four", "anchors": ["zfp/src/template/compress.c", "zfp/src/template/decompress.c"]}
{"id": "C18", "title": "Header round trip", "statement": "The field metadata word and the full header written for a valid field are read back as the same type, dimensionality and extents.", "quantifier": "every field type and every extents within the format's limits", "why_tests_cant": "2^48 extents", "anchors": ["zfp/src/zfp.c: zfp_field_metadata, zfp_field_set_metadata, zfp_write_header, zfp_read_header"]}
{"id": "C19", "title": "Compression-mode round trip", "statement": "The mode word written for a stream reproduces the stream's compression parameters when read back, so that the decoder makes the same decisions as the encoder.", "quantifier": "every parameter quadruple (minbits,maxbits,maxprec,minexp)", "why_tests_cant": "the short and long encodings partition a huge parameter space", "anchors": ["zfp/src/zfp.c: zfp_stream_mode, zfp_stream_set_mode, zfp_stream_compression_mode"]}
{"id": "C20", "title": "Parameter setters are valid and self-describing", "statement": "set_rate, set_precision and set_accuracy always leave the stream with valid parameters, report the mode that was requested, and a fixed-rate setting is word aligned when random writes are requested.", "quantifier": "every type, dimensionality, rate, precision and tolerance", "why_tests_cant": "parameter ranges are unbounded", "anchors": ["zfp/src/zfp.c: zfp_stream_set_rate, zfp_stream_set_precision, zfp_stream_set_accuracy, zfp_stream_set_params"]}
{"id": "C21", "title": "Small-integer promotion is lossless", "statement": "Promoting 8/16-bit signed or unsigned samples to 32-bit and demoting them returns the samples; demoting any 32-bit value saturates to the sample range.", "quantifier": "every sample and every 32-bit value", "why_tests_cant": "2^32 inputs per function", "anchors": ["zfp/src/zfp.c: zfp_promote_*, zfp_demote_*"]}
{"id": "C22", "title": "Parallel compression equals serial compression", "statement": "Splitting the blocks over any number of chunks, compressing the chunks in any order on any threads and concatenating gives bit for bit the stream of the serial compressor.", "quantifier": "every number of blocks and chunks, every completion order", "why_tests_cant": "all schedules and chunk counts", "anchors": ["zfp/src/share/omp.c", "zfp/src/share/parallel.c", "zfp/src/template/ompcompress.c"]}
{"id": "C23", "title": "Compressed-array cache is transparent", "statement": "For any history of element reads and writes, whole-array get and set, flushes, clears, cache resizes, array resizes and requests for the compressed data, a 1D, 2D or 3D compressed array of float or double with fewer than 2^31 blocks returns for every element the value last written or, if its block was written back since, the value that block decodes to when coded alone: no write-back is lost, no stale block is returned, a write is read back unchanged at once, and without element writes no observation depends on the cache.", "quantifier": "every operation history, cache size, replacement strategy, word size, rate, array size and content of uninitialised memory", "why_tests_cant": "unbounded histories and eviction patterns", "anchors": ["zfp/array/zfp/cache.h", "zfp/array/zfparray1.h, zfparray2.h, zfparray3.h"]}
{"id": "C24", "title": "Fixed-rate random access isolation", "statement": "Re-encoding one block of a fixed-rate array at its offset, from any state of the stream, changes only the words of that block, and decoding the block then gives the value it has when coded alone. This needs the word alignment that set_rate gives arrays; without it the neighbouring block is destroyed.", "quantifier": "every array, block index and block content", "why_tests_cant": "all block contents and offsets", "anchors": ["zfp/array/zfparray1.h: encode", "zfp/src/zfp.c: zfp_stream_set_rate", "zfp/src/inline/bitstream.c: stream_wseek"]}
{"id": "C25", "title": "Parameter lookup: last setting wins, command line overrides parameter file", "statement": "A parameter given several times has its last value; values on the command line override those of the par= file; asking for the n-th occurrence returns exactly the n-th.", "quantifier": "every argument vector and parameter file", "why_tests_cant": "unbounded argument lists", "anchors": ["utils/getpars.c: initargs, getparindex, getnpar, countnparname"]}
{"id": "C26", "title": "Value count bounds the values stored", "statement": "The number of values a caller is told to expect (countparval) is never smaller than the number of values getpar stores in the caller's array.", "quantifier": "every parameter string", "why_tests_cant": "a heap overrun for one string would break it", "anchors": ["utils/getpars.c: countnparval, getnpar, ccount"]}
{"id": "C27", "title": "Parameter file contents are seen completely", "statement": "Every name=value pair in a parameter file whose words are separated by white space (values optionally quoted as a whole) and whose last word is followed by white space is available, in order, with its complete value. Without that trailing white space the last character is lost, and a word that begins with a quote overruns the argument table.", "quantifier": "every parameter file content", "why_tests_cant": "depends on the last bytes of the file", "anchors": ["utils/getpars.c: getparinit, white2null, tabulate"]}
{"id": "C28", "title": "Checked numeric conversion", "statement": "A numeric parameter (optional blanks, sign, decimal digits) of a signed type is converted to the number written if that fits the C type and rejected otherwise; the same holds for unsigned types and numbers without a minus sign. Unsigned types take -n as 2^64-n, text that is not a number counts as 0, and a stale errno rejects every number.", "quantifier": "every digit string and every type", "why_tests_cant": "unbounded digit strings", "anchors": ["utils/atopkge.c: eatoh, eatou, eatoi, eatop, eatol, eatov"]}
{"id": "C29", "title": "FFT length is at least the data length", "statement": "The transform length suggested for n samples (complex and real) is a length the transforms support. It is at least n for every n up to 2^14, and above that up to 720720 whenever n is not within the tolerance of the logarithm above a power of two; just above a power of two from 2^14 on the suggestion is that smaller power of two, and above the largest supported length it can be smaller than n as well.", "quantifier": "every n>0", "why_tests_cant": "all lengths; rounding of logarithms only fails just above powers of two", "anchors": ["FFTlib/optnumber.c: optncc, optncr, loptncr"]}
{"id": "C30", "title": "Prime-factor FFT length search", "statement": "npfa returns the smallest supported length not smaller than n, npfar the smallest supported even real length, and the optimising searches the cheapest supported length in the allowed range; every returned length is a product of mutually prime supported factors. Above the largest supported length the answer is too small.", "quantifier": "every n", "why_tests_cant": "all n, table boundary handling", "anchors": ["FFTlib/pfafft.c: npfa, npfao, npfar, npfaro", "FFTlib/pfaconst.h: nctab"]}
{"id": "C31", "title": "Complex FFT computes the DFT", "statement": "The mixed-radix complex transform of length n equals the discrete Fourier transform with the requested sign for every length, whatever its factorisation; so does the prime-factor transform for every length it supports; forward followed by backward multiplies by n; at most 31 factors are found for a 32-bit length.", "quantifier": "every n>0 and every input vector (exact arithmetic)", "why_tests_cant": "unbounded factorisations; each uses a different combination of butterflies", "anchors": ["FFTlib/kiss_fft.c: kf_work, kf_bfly2, kf_bfly3, kf_bfly4, kf_bfly5, kf_bfly_generic, kf_factor", "FFTlib/pfafft.c: pfacc"]}
{"id": "C32", "title": "Transform direction follows the call, not the history", "statement": "A complex transform with a given sign gives the result for that sign whatever lengths and signs the same thread transformed before; with several threads it does if all calls go in the same direction one after the other, or run at the same time but all forward. With both directions in two threads, or with overlapping backward calls, a wrong result is possible.", "quantifier": "every history of transform calls and every interleaving of the steps of several threads", "why_tests_cant": "hidden static state makes the result depend on unbounded histories", "anchors": ["FFTlib/kiss_fft.c: kiss_fft, kiss_fft_alloc", "FFTlib/lib_fft.c: cc1_fft"]}
{"id": "C33", "title": "Direct DFTs and their inverses", "statement": "The direct complex and real-to-complex transforms compute the defining sums whatever was transformed before, and the complex-to-real transform of a real-to-complex transform is n times the input for odd n. For even n the complex-to-real transform adds a term alternating in sign, so that even a zero signal does not come back.", "quantifier": "every n and every input (exact arithmetic)", "why_tests_cant": "all lengths, odd and even", "anchors": ["FFTlib/lib_fft.c: ccdft, rcdft, crdft"]}
{"id": "C34", "title": "Multi-trace transform layout round trip", "statement": "Transforming a gather to the (w,x) or (w,kx) domain puts the transform of trace x at frequency w, or the sum over the traces with the chosen origin, in the documented element and nowhere else, and transforming back returns the gather, for every origin position and every leading dimensions; the padding behind the traces is scaled too.", "quantifier": "every gather size, padding and origin", "why_tests_cant": "index permutations over unbounded sizes", "anchors": ["FFTlib/xt2wx.c, wx2xt.c, xt2wkx.c, wkx2xt.c"]}
{"id": "C35", "title": "Receiver samples stay inside the receiver array", "statement": "Every sample recorded during modelling is stored inside the trace of its receiver exactly when the trace is longer than the largest sample number; with the default trace length that holds exactly when the receiver sampling divides the run, and otherwise the last sample is written past the end of the trace.", "quantifier": "every modelling length, receiver delay, sampling ratio and samples-per-file setting", "why_tests_cant": "only particular combinations of run length and sampling ratio reach the end of the trace", "anchors": ["fdelmodc/fdelmodc.c: main time loop (isam, writeToFile, fileno)", "fdelmodc/getParameters.c: rec->nt, rec->skipdt", "fdelmodc/getRecTimes.c"]}
{"id": "C36", "title": "Recorded sample is the wavefield at its time", "statement": "Sample 0 of an output trace is zero and sample k+1 is the wavefield at the receiver after time step delay+k*skipdt; when every step is recorded from the start this is the field at time i*dtrcv.  With a coarser receiver sampling the times are off, and when the recording is split over files samples are lost.", "quantifier": "every run length and samples-per-file setting", "why_tests_cant": "needs all split positions and histories of accumulation", "anchors": ["fdelmodc/fdelmodc.c", "fdelmodc/getRecTimes.c", "fdelmodc/writeRec.c"]}
{"id": "C37", "title": "Finite-difference kernels stay inside the grid", "statement": "Every array element read or written in a time step of the acoustic (order 4, 6, 16, also SH), elastic (order 6) and double-couple schemes is inside the allocated arrays, for every model size, taper length, source position in the model and combination of free, rigid and tapered sides.  The acoustic order 2 and elastic order 4 schemes and a rigid left side with order 6 or more do leave their arrays.", "quantifier": "every nx,nz>0, scheme and order, boundary combination, taper length, surface and source list", "why_tests_cant": "all sizes and boundary combinations", "anchors": ["fdelmodc/acoustic2.c", "fdelmodc/acoustic4.c", "fdelmodc/acoustic6.c", "fdelmodc/elastic4.c", "fdelmodc/getParameters.c: io*/ie* ranges"]}
{"id": "C38", "title": "Time step does not depend on the thread schedule", "statement": "With tapered sides (the top may be free in acoustic schemes) and sources at different places, the wave fields after any number of time steps are bit for bit the same for every number of threads, distribution of the loop iterations and interleaving of loads and stores.  Acoustic order 2, a free surface without tapers and the double-couple scheme do depend on the schedule.", "quantifier": "every field, every permutation of the loop iterations and every interleaving of the threads", "why_tests_cant": "schedules are unbounded", "anchors": ["fdelmodc/acoustic4.c", "fdelmodc/elastic4.c"]}
{"id": "C39", "title": "Superposition", "statement": "The modelled wavefield is linear in the source: the field for a sum of sources is the sum of the fields, after any number of time steps.", "quantifier": "every model, every pair of sources, every number of time steps", "why_tests_cant": "unbounded time steps and fields (exact arithmetic)", "anchors": ["fdelmodc/acoustic4.c", "fdelmodc/applySource.c"]}
{"id": "C40", "title": "Domain of dependence", "statement": "The wave field at a grid point after n time steps depends only on the medium, the initial wave field and the sources within n times the stencil reach (order, plus 3 cells at a free surface).", "quantifier": "every model and every k", "why_tests_cant": "unbounded time steps", "anchors": ["fdelmodc/acoustic4.c"]}
{"id": "C41", "title": "Snapshots have the announced shape and content", "statement": "Each snapshot contains exactly the announced number of traces and samples, sample (i,j) is the field at window point (x1+i*skipdx, z1+j*skipdz) with the origin of the Vx grid, all reads are inside the grid for windows inside the model, and snapshots are written at exactly the announced time steps.  The pressure is taken one column to the right of a receiver at the same position; snapshots with boundaries read outside the arrays if Vx and Vz are both requested.", "quantifier": "every snapshot window, decimation and time setting", "why_tests_cant": "unbounded window and decimation combinations", "anchors": ["fdelmodc/writeSnapTimes.c", "fdelmodc/getParameters.c: sna"]}
{"id": "C42", "title": "Shots are divided over processes exactly once", "statement": "With any number of processes every shot is modelled by exactly one process.", "quantifier": "every number of shots and processes", "why_tests_cant": "unbounded", "anchors": ["fdelmodc/fdelmodc.c: npeshot, is0, is1"]}
{"id": "C43", "title": "Output file names", "statement": "Inserting a component suffix in a file name keeps the extension and distinct suffixes give distinct file names.  A \".su\" earlier in the path truncates the name there, and suffixes of 97 characters or more overflow the local buffer.", "quantifier": "every file name and suffix", "why_tests_cant": "all strings", "anchors": ["fdelmodc/name_ext.c", "fdelmodc/fileOpen.c"]}
{"id": "C44", "title": "Mute windows", "statement": "For every kind of window the result is the data times a window that is 0 in the muted interval, 1 outside it and the taper in between, every other sample unchanged; with the cosine taper the windows for the focusing function and for the Green's function of arrivals in the first half of the trace add up to the identity; the focusing window is symmetric in time, and plane-wave windows of successive iterations are time reverses.  Window -2 leaves a sample between its taper and its muted part, windows 0 and 4 are not complementary for late arrivals, nor are the plane-wave windows with a taper.", "quantifier": "every mute time, shift, taper length and trace length in range", "why_tests_cant": "all window positions including wrap around t=0", "anchors": ["marchenko/applyMute.c", "marchenko/mapj.c"]}
{"id": "C45", "title": "Synthesis positions", "statement": "The list of lateral positions covered by the shots is strictly increasing, contains the nearest grid position of every shot in the aperture exactly once and nothing else (with reciprocity: the positions with enough traces), and they are on the grid when the 0.1% aperture tolerance is less than half a grid step.  For larger coordinates negative positions occur.", "quantifier": "every shot geometry", "why_tests_cant": "unbounded shot lists with repetitions", "anchors": ["marchenko/synthesis.c: synthesisPositions, linearsearch"]}
{"id": "C46", "title": "Marchenko integration does not depend on the thread schedule", "statement": "With at most one shot at each position the integral is the same for every distribution of shots over threads and interleaving of their loads and stores, and it is, at each position, the sum over its shots of the receiver integral of reflection data times field, completed by the reciprocal integral and weighted with the mask.  With two shots at one position a contribution can be lost.", "quantifier": "every shot geometry and every schedule", "why_tests_cant": "all schedules; two shots at one position share the output trace", "anchors": ["marchenko/synthesis.c: synthesis"]}
{"id": "C47", "title": "Fixed-accuracy mode honours its tolerance", "statement": "After compressing and decompressing an array of floats or doubles in fixed-accuracy mode with tolerance 2^t every value differs from the original by less than 2^t.  Conditions found while proving: each block is all zero, or far below the tolerance, or has its largest value in the representable range, at most 2^19 (float) or 2^48 (double) times the tolerance and not within the tolerance of the next power of two; the last condition is necessary.", "quantifier": "every finite array in the stated range, every tolerance, stride, shape, word size and buffer", "why_tests_cant": "the bound is a worst case over all blocks of values", "anchors": ["zfp/src/template/encodef.c", "zfp/src/template/decodef.c", "zfp/src/template/codecf.c"]}
{"id": "C48", "title": "Floating-point blocks have the promised size and stay in step", "statement": "Every float or double block takes between minbits and maxbits bits, exactly the budget in fixed-rate mode; the decoder consumes exactly the bits the encoder produced; sizes and decoded values do not depend on the position in the stream.", "quantifier": "every finite block not too small for the type, all parameters, positions and word sizes", "why_tests_cant": "all blocks and offsets", "anchors": ["zfp/src/template/encodef.c", "zfp/src/template/decodef.c"]}
{"id": "C49", "title": "Extreme floating-point blocks", "statement": "An all-zero block is decoded exactly.  A block whose largest magnitude is below 2^-97 (float) or 2^-961 (double) and that is not coded as zero is outside the format: its scale factor is infinite and the conversion to integer undefined, so the claim that every finite block can be compressed is false.", "quantifier": "every block below the range, all parameters", "why_tests_cant": "needs a statement about all blocks of a range", "anchors": ["zfp/src/template/encodef.c: zfp_encode_block, quantize"]}
{"id": "C50", "title": "A time step computes the documented update formulas", "statement": "After one step of the acoustic schemes (order 4, 6 and 16), the SH scheme and the elastic scheme (order 6), each velocity and stress value in its grid holds the old value minus medium parameter times the staggered-difference stencil of the old fields (stress: of the new velocities), values in the taper strips are additionally multiplied by the taper factors, source cells carry their source amplitude exactly once, and every other cell keeps its value.", "quantifier": "every grid size, medium, wavefield, list of distinct sources and arithmetic, all sides tapered", "why_tests_cant": "all grids and fields; region boundaries, corners and sources interact", "anchors": ["fdelmodc/acoustic4.c", "fdelmodc/acoustic6.c", "fdelmodc/acoustic16.c", "fdelmodc/acousticSH4.c", "fdelmodc/elastic6.c", "fdelmodc/boundaries.c", "fdelmodc/applySource.c"]}
{"id": "C51", "title": "Difference coefficients approximate the derivative to the advertised order", "statement": "The Taylor coefficients of the fourth and sixth order schemes differentiate every polynomial of degree at most 4 and 6 exactly; the optimised coefficients differentiate quadratic fields up to a factor within one millionth of 1.", "quantifier": "every polynomial of the degree and every position", "why_tests_cant": "all polynomials over the rationals", "anchors": ["fdelmodc/acoustic4.c", "fdelmodc/acoustic6.c", "fdelmodc/acoustic16.c", "fdelmodc/elastic4.c", "fdelmodc/elastic6.c"]}
{"id": "C52", "title": "Free surface condition", "statement": "After every step of the acoustic schemes with a free top the pressure on the surface is zero in every column, and the vertical velocity is mirrored at it in every interior column.", "quantifier": "every topography, grid, wavefield, source list and arithmetic", "why_tests_cant": "all topographies; later loops could overwrite the imposed values", "anchors": ["fdelmodc/boundaries.c: boundariesP, boundariesV", "fdelmodc/acoustic4.c", "fdelmodc/acoustic6.c", "fdelmodc/acoustic16.c"]}
{"id": "C53", "title": "Shots are independent", "statement": "The traces written for a shot are the ones a run of that shot alone writes, whatever shots were modelled before it in the same process.", "quantifier": "every number of shots, wavefields and recording settings", "why_tests_cant": "all histories of shots; buffers are reused between shots", "anchors": ["fdelmodc/fdelmodc.c: shot loop", "fdelmodc/getRecTimes.c", "fdelmodc/writeRec.c"]}
{"id": "C54", "title": "Receivers record at the documented positions", "statement": "For every component and interpolation option the recorded value of a field that is affine in space is its value at the documented position: half-cell staggered positions by default, moved to the pressure, Vx or Vz positions by the interpolation options, and anywhere in a cell with bilinear interpolation; derivative, divergence and rotation components are the exact derivatives.  Elastic Vx interpolated to the pressure points has half of the value, and Vz interpolated to Vx positions is one cell away from the recorded Vx.", "quantifier": "every affine field, grid point, cell position and medium", "why_tests_cant": "all fields and positions; a wrong index is invisible on smooth examples", "anchors": ["fdelmodc/getRecTimes.c"]}
{"id": "C55", "title": "Receivers read inside the grid", "statement": "Recording any component with any interpolation option reads only inside the allocated arrays for every receiver in the model, for order 6 and 16, and for order 4 when all sides are tapered; for order 4 with an untapered side a receiver in the first column reads outside.", "quantifier": "every receiver position, grid, component and interpolation option", "why_tests_cant": "all positions and options", "anchors": ["fdelmodc/getRecTimes.c", "fdelmodc/getParameters.c"]}
{"id": "C56", "title": "Marchenko iterations solve the coupled Marchenko equations", "statement": "After any number of iterations the output fields are the alternating sums of the iterates: f1+ the direct field plus the even ones, f1- minus the time-reversed odd ones, f2 all of them; after an odd (even) number the first (second) Marchenko equation holds exactly; the Green's functions G, G- and G+ are the windowed representation formulas of these fields.  With no iterations G+ depends on whether G- was requested.", "quantifier": "every number of iterations, geometry, reflection response, direct field, window and arithmetic", "why_tests_cant": "unbounded number of iterations over all data", "anchors": ["marchenko/marchenko.c: iteration loop, Green's functions", "marchenko/synthesis.c", "marchenko/applyMute.c", "marchenko/writeDataIter.c"]}
{"id": "C57", "title": "Padding of shot records", "statement": "Extending a shot record of nt samples to the transform length keeps samples 0 to nt-2 and clears nt-1 to ntfft-2: so the last sample of every shot record is lost and the last sample of the extension is not cleared.", "quantifier": "every trace and pair of lengths", "why_tests_cant": "all lengths", "anchors": ["marchenko/readShotData.c"]}
{"id": "C58", "title": "Rotation of the time axis for output", "statement": "With an even number of samples the rotated trace has time zero in the middle and is a permutation of the samples; with an odd number the sample at time zero is lost.", "quantifier": "every trace and length", "why_tests_cant": "all lengths and samples", "anchors": ["marchenko/marchenko.c: rotate option"]}
{"id": "C59", "title": "Real prime-factor transforms", "statement": "For every even length whose half is supported, the real-to-complex prime-factor transform gives the values 0..n/2 of the discrete Fourier transform and writes nothing else, the complex-to-real transform gives the transform of the hermitian spectrum, and one after the other with opposite signs multiply by n.", "quantifier": "every supported even n, both signs, every input (exact arithmetic)", "why_tests_cant": "all lengths; the twiddle loop meets itself in the middle only for some", "anchors": ["FFTlib/pfafft.c: pfarc, pfacr"]}
{"id": "C60", "title": "Reading and writing shot records", "statement": "Reading a file record by record delivers exactly its maximal runs of traces with the same source position and record number, complete and in order, writes nothing outside their place in the arrays, and then reports the end of the file; a file that breaks off within a trace ends in a failed assertion with at most the last record undelivered; written traces are appended byte for byte and a written record is read back.", "quantifier": "every file of traces with equal sample counts, every truncation point, every array contents", "why_tests_cant": "all files, all record divisions and every byte at which a file may break off", "anchors": ["marchenko/readData.c", "marchenko/writeData.c"]}
{"id": "C61", "title": "File information", "statement": "The scan of a file returns its numbers of samples, traces and records, the largest number of traces per record, the time axis, the scale factor, the smallest and largest coordinate and the receiver distance; so the arrays sized from it hold every record.  With the number of records given only the first record and last trace are read, which is right when all records are of equal length.  A file of single-trace records is reported as having no traces per record.", "quantifier": "every file of traces with equal sample counts", "why_tests_cant": "all files; the size of every later read depends on it", "anchors": ["marchenko/getFileInfo.c"]}
{"id": "C62", "title": "Source and receiver positions, reciprocal traces", "statement": "After reading the shots every source and receiver position and trace count is stored at its place and nothing else is written.  The reciprocity tables list for every lateral place exactly the traces recorded there, in order, without those whose reciprocal trace was recorded when reci=1; places with a source get weight one half; entries outside the tables are not touched as long as no place receives more traces than there are places; otherwise entries are written outside the table.", "quantifier": "every geometry of shots and receivers, every file", "why_tests_cant": "all acquisition geometries", "anchors": ["marchenko/readShotData.c: readShotData, positions and reciprocity"]}
{"id": "C63", "title": "Polynomial interfaces", "statement": "Polynomial interpolation returns, at every abscissa, the value of the polynomial of degree less than n through the n points, whatever their order, and an error estimate that is its difference to the polynomial through all but the first or all but the last point; it stops the program when two abscissae are equal.", "quantifier": "every set of points, every abscissa (exact arithmetic)", "why_tests_cant": "all numbers and positions of points", "anchors": ["utils/polint.c"]}
{"id": "C64", "title": "Cubic spline interfaces", "statement": "For increasing abscissae there is exactly one cubic spline with the requested end conditions (no curvature, or a given slope) and the spline routines return its value at every abscissa, continuing the outer pieces outside.  One point, or an abscissa between equal knots, stops the program.", "quantifier": "every increasing sequence of points, end conditions and abscissa (exact arithmetic)", "why_tests_cant": "all numbers and positions of points", "anchors": ["utils/spline.c", "utils/spline.c: splint"]}
{"id": "C65", "title": "Depth of an interface at every column", "statement": "With points on the columns of the grid from left to right, makemod gives every column between the first and last point the depth of the broken line, polynomial or spline through the points, and its row is the nearest one; lateral velocities are constant, linear between the ends, or linear between points at least two columns apart; no other entry changes.  Points between columns shift the interface, points left of the model are stored in front of the array, and values at adjacent columns are shifted.", "quantifier": "every list of points, depths and values on every grid", "why_tests_cant": "all geometries", "anchors": ["utils/interpolation.c", "utils/linearint.c", "utils/sinuousint.c"]}
{"id": "C66", "title": "Filling the grid below an interface", "statement": "Below an interface every grid value is the transition (linear or cosine) from the previous velocity over the given rows followed by the velocity with its vertical gradient; above=1 fills the rows above; each of the three properties is filled from its own values and nothing else is written.  Without room at the bottom the next column is overwritten, a transition of one row divides by zero, above=1 with a transition fills the part below, shear velocity without density stores through NULL, and at the surface a linear transition overshoots.", "quantifier": "every grid, interface and velocities with room for the transition", "why_tests_cant": "all grids and interfaces", "anchors": ["utils/grid.c", "utils/gridabove.c"]}
{"id": "C67", "title": "A stack of layers", "statement": "For any list of layers the finished model has at every column and row the value of the last layer in the list that covers the column and whose interface is not below the row, and the background value where there is none; the value is unique and nothing outside the grid changes.", "quantifier": "every list of layers with points on the grid, every grid size", "why_tests_cant": "unbounded lists of layers over all geometries", "anchors": ["utils/makemod.c", "utils/interpolation.c", "utils/linearint.c", "utils/grid.c"]}
{"id": "C68", "title": "Smoothing and reflectivity of a model", "statement": "The smoothed coarse grid has the weighted harmonic mean of the velocity and arithmetic mean of the density around each coarse point, reads only inside the grid, repeats the last column and row, and stays within the bounds of the model; shear velocities are not smoothed.  The reflectivity is the normalised difference of neighbouring impedances, between -1 and 1, and zero in the last row and column.", "quantifier": "every grid, all positive weights and models", "why_tests_cant": "all grids and sizes", "anchors": ["utils/makemod.c: supersmooth, reflectivity"]}
{"id": "C69", "title": "Convolution of gathers", "statement": "fconv mode=conv writes dt times the convolution of each pair of traces, periodic in the length of the transform, optionally delayed by half a trace; it is the true convolution where the parts beyond the trace fit in the padding, and with exponential damping the wrapped-around part is reduced by exp(alpha n dt).  Without zeroes at the end of the traces the end of the result is added to its begin.  Nothing outside the output gather is written.", "quantifier": "every gather, number of traces, samples up to 16384, sampling interval and damping (exact arithmetic)", "why_tests_cant": "all data and sizes; equality with the mathematical sum", "anchors": ["utils/fconv.c: convol, pad_data, scl_data"]}
{"id": "C70", "title": "Correlation of gathers", "statement": "fconv mode=cor1 writes dt times the correlation of each pair of traces at lag t, or t - nsam/2 with the shift, equal to the true correlation where the padding suffices; the power option writes its even part.  cor3 writes the even part of the convolution although a correlation is documented, and without the shift negative lags lie behind the written samples when the transform is longer than the trace.", "quantifier": "every gather, number of traces, samples up to 16384, sampling interval", "why_tests_cant": "all data and sizes", "anchors": ["utils/fconv.c: corr, corr3, power"]}
{"id": "C71", "title": "Deconvolution of gathers", "statement": "fconv deconvolution writes dt times the trace whose spectrum is F1 conj(F2) / (|F2|^2 + reps max|F2|^2 + eps), the maximum taken over all frequencies and traces; without stabilisation, for spectra without zeroes, convolving the result with the second trace returns the first trace.", "quantifier": "every gather whose denominators are not zero", "why_tests_cant": "all data; inverse relation between two operations", "anchors": ["utils/fconv.c: deconv"]}
{"id": "C72", "title": "Coherence of gathers", "statement": "fconv coherence divides the cross-spectrum of each trace by its amplitude where this is above epsmax times the largest of the trace, leaving only the phase, and by the amplitude plus stabilisation below.  At equality the factor of the frequency before, or one that was never set, is used.", "quantifier": "every gather without an amplitude equal to the threshold", "why_tests_cant": "all data", "anchors": ["utils/fconv.c: cohr"]}
{"id": "C73", "title": "Pairing of gathers from two files", "statement": "fconv produces one output gather per gather of the first file, combined with the gather of the same number of the second file or its last one; traces are padded with zeroes, the shorter gather is extended with its last trace, and the damping is applied with the time of the sample and taken off with that of the result.  For regular files all gathers are complete; ntfft is dropped after the first gather, a repeated gather is not extended to more traces, and samples beyond the longest trace are written with a factor read past the end of its table.", "quantifier": "every pair of files with any numbers of gathers, traces and samples", "why_tests_cant": "unbounded sequences of gathers", "anchors": ["utils/fconv.c: main"]}
{"id": "C74", "title": "Material parameters on the staggered grid", "statement": "When fdelmodc reads a model, every position of the model and of the absorbing sides around it gets the parameters of the nearest cell of the model files: at the velocity positions the scaled inverse of the mean of the densities of the two neighbouring cells, zero where the cell has no velocity; at the pressure positions lambda+2mu and lambda of the cell.  The program stops exactly when a cell has zero density.  Nothing outside the arrays is written.", "quantifier": "every model, size, order of the scheme, choice of absorbing, rigid or free sides and width of the sides (exact arithmetic)", "why_tests_cant": "all models, sizes and combinations of four sides", "anchors": ["fdelmodc/readModel.c: readModel", "fdelmodc/getParameters.c: getParameters"]}
{"id": "C75", "title": "Shear rigidity and vertical velocities near the sides", "statement": "At the shear-stress positions fdelmodc uses the harmonic mean of the rigidities of the four cells around it where the density does not vary horizontally and along the last row and column; elsewhere the densities of the left cells are used for the right ones as well.  With perfectly matched layers in the elastic scheme (the default) the vertical buoyancy of the first column is replaced by that of the second at the left side and the one of the last row by that of the row above it at the bottom; all other positions are as in C74.", "quantifier": "every model and size and every combination of sides", "why_tests_cant": "all models", "anchors": ["fdelmodc/readModel.c: readModel"]}
{"id": "C76", "title": "Quality factors of visco-acoustic and visco-elastic media", "statement": "The relaxation times fdelmodc derives from the quality factors give, at every position of the model and its absorbing sides and for every requested frequency, a standard linear solid with exactly the quality factor of the nearest cell at that frequency and a larger one at all other frequencies; the shear relaxation time gives the shear quality factor when this is at least 1.  In the visco-acoustic scheme nothing outside the arrays is written; in the visco-elastic scheme more than one frequency writes beyond their ends.", "quantifier": "every model of quality factors, frequencies, sizes and sides (exact arithmetic)", "why_tests_cant": "all quality factors and frequencies; extremum over all frequencies", "anchors": ["fdelmodc/readModel.c: readModel", "fdelmodc/getParameters.c: getParameters"]}
{"id": "C77", "title": "Visco-acoustic pressure", "statement": "After any number of visco-acoustic time steps the pressure of every grid point is the superposition of the responses of standard linear solids, one per frequency, to the divergences of all steps before, plus the sources; the response of one solid decreases monotonically to the modulus of the model.  With more than one frequency every solid has the full modulus, so that the relaxed modulus is the number of frequencies times the one of the model.", "quantifier": "every sequence of velocity fields and sources, any number of steps and frequencies, every grid", "why_tests_cant": "unbounded histories with memory variables", "anchors": ["fdelmodc/viscoacoustic4.c: viscoacoustic4"]}
{"id": "C78", "title": "Visco-elastic stresses", "statement": "After any number of visco-elastic time steps the normal and shear stresses of every grid point are the superpositions of the responses of standard linear solids for compression and for shear to the strains of all steps before, plus the sources.  The shear stresses of the last column are never updated, and those of the last row are computed with factors that were never set.", "quantifier": "every sequence of velocity fields and sources, any number of steps, every grid", "why_tests_cant": "unbounded histories with memory variables; values of memory that was never set", "anchors": ["fdelmodc/viscoelastic4.c: viscoelastic4"]}
{"id": "C79", "title": "Lines of receivers", "statement": "A line of receivers inside the model with a distance in x (or distance 0 in x and one in z) gets one receiver more than the number of distances that fit best; the receivers start at the first point, advance by the distance in that direction and by equal parts of the line's extent in the other, and are recorded at the nearest grid points.  Lines follow each other in order, after circle, text file and xrcva points.  All receivers are in the model when the distance divides the extent.  Without parameters there is one receiver at every grid point of the top row.  Exceptions in the code: a vertical line with only dzrcv is placed on a diagonal; a distance that does not divide the extent can put the last receiver outside the model; a line shorter than half the distance gives a receiver with an undefined depth; one dxrcv and dzrcv for several lines uses memory never set; a negative dxrcv or too many distances write outside the arrays.", "quantifier": "every list of lines, distances, model size and other receivers; every content of fresh memory (exact arithmetic)", "why_tests_cant": "all parameter combinations; contents of uninitialised memory", "anchors": ["fdelmodc/recvPar.c: recvPar", "fdelmodc/getParameters.c: getParameters"]}
{"id": "C80", "title": "Receivers at points and on a circle", "statement": "Whenever the receiver definition succeeds, the announced number of receivers are all defined and no others: first those of the circle, at multiples of dphi around its centre and recorded at the nearest grid point of the model, then those of the text file and of xrcva, zrcva at their own positions, recorded at the nearest grid points (which may lie outside the model: they are not moved into it).  Nothing is written outside the receiver arrays if the distances are not negative and not more than the lines.", "quantifier": "every set of parameters and every content of fresh memory (exact arithmetic)", "why_tests_cant": "all parameter combinations", "anchors": ["fdelmodc/recvPar.c: recvPar"]}
{"id": "C81", "title": "Perfectly matched layers", "statement": "In every time step of the acoustic fourth-order scheme the layers (sides of kind 2) change exactly the velocities and pressures within the layers; in a layer the derivative across it is replaced by the stretched one, the derivative divided by the stretch minus the faded sum of the derivatives of all steps of this shot, whatever was left from an earlier shot, and derivatives along it are kept; points of the model are not changed, and the two outermost columns and rows repeat the third.  With absorbing sides all round nothing outside the arrays is read.  Exceptions in the code: a layer at the top next to a free or rigid side reads before or after the arrays; a layer at the left below a free or rigid surface changes the row above it with pressures of another column; layers at opposite sides do not damp pressures alike.", "quantifier": "every model size, combination of sides, layer thickness and parameters, every history of fields and any number of steps (exact arithmetic)", "why_tests_cant": "unbounded histories with memory variables; all combinations of sides", "anchors": ["fdelmodc/boundaries.c: boundariesP, boundariesV", "fdelmodc/getParameters.c: getParameters"]}
{"id": "C82", "title": "Perfectly matched layers do not amplify", "statement": "Over any number of time steps the sum of the squares of the changes of a velocity in a layer is at most that of the changes without the layer divided by the square of the stretch (between 1 and 5); a gradient that stays constant is faded out exponentially; and the damping profile adds up, over the layer there and back, to exactly the reflection coefficient that was asked for.", "quantifier": "every history of pressure fields, any number of steps, all parameters of the layers with a positive time step (exact arithmetic)", "why_tests_cant": "unbounded histories; limits and integrals over real numbers", "anchors": ["fdelmodc/boundaries.c: boundariesP"]}
{"id": "C83", "title": "Injection of the sources", "statement": "In every time step each source that has begun and not ended, with its column inside the model, adds to the wave fields the pattern of its type and orientation around its grid point, with the linearly interpolated value of its wavelet, the window of the source array and the stiffness at the source as strength; several sources add up, and nothing else changes.  Point sources and plane waves use samples of the wavelet only; in a plane wave each source begins a fixed time after its left neighbour, the one at the shot begins at recording time zero, and none has begun before the first step.  Exceptions in the code: signals of random length can use one sample after their last one; the window removes the first source of an array but keeps the last one at the weight of the third; a horizontal force adds half of what a vertical force adds; a source in the first column outside the model is injected; the fourth-order shear source in the first row of a model without absorbing layer changes another column.", "quantifier": "every model size, order, combination of sides, source type and orientation, any number of sources, all wavelets, fields and time steps (exact arithmetic)", "why_tests_cant": "all source types, positions, delays and numbers of sources; real-valued time", "anchors": ["fdelmodc/applySource.c: applySource", "fdelmodc/getParameters.c: getParameters"]}
{"id": "C84", "title": "Potential sources radiate one kind of wave", "statement": "Any number of shear potential sources, monopoles or dipoles, leaves the divergence of the velocities unchanged in second-order differences, and any number of compressional potential sources leaves the rotation unchanged; the fourth-order shear source leaves the divergence in the differences of the scheme unchanged.  Exception in the code: the second-order shear source does change the divergence in the fourth-order differences of the scheme.", "quantifier": "every point, any number of sources with arbitrary wavelets, orientations and positions in the model, all fields (exact arithmetic)", "why_tests_cant": "identity between fields for all inputs", "anchors": ["fdelmodc/applySource.c: applySource"]}
{"id": "C85", "title": "Source signatures from a file", "statement": "The signature used in the modelling has, at the frequencies of the file, the spectrum of the wavelet in the file, integrated in time unless it is an injection rate and delayed for potential sources, and nothing above these frequencies; the last value is subtracted, or the first one in time reversal.  With equal time steps the samples of the file are used unchanged up to that constant, and when the time step of the file is an integer multiple r of that of the modelling every r-th value is a sample of the file.  The zero frequency is the quadratic extrapolation of the amplitudes of the first three frequencies and has no effect on the result.  Values below 1e-5 of the peak of the last signature are set to zero, so that one signature alone changes by at most 1e-5 of its peak.  Exceptions in the code: for other ratios of the time steps the signature is stretched or compressed in time; with several signatures a strong last one erases a weak one.", "quantifier": "every wavelet, number of samples with a transform that holds them, pair of time steps, delay, both values of the options (exact arithmetic)", "why_tests_cant": "identity between sampled signals for all inputs; exact only in real arithmetic", "anchors": ["fdelmodc/defineSource.c: defineSource", "fdelmodc/getParameters.c: getParameters"]}
{"id": "C86", "title": "Random source signals", "statement": "Every random signal has zero mean and the drawn spectrum, so that the search for its first zero crossing ends inside the array; the last crossing is at most the wanted length later.  The signal is the part between the crossings, with a cubic over the first and last ten samples that leads from zero with zero slope to the value and slope of the signal, and back; it never has more samples than were reserved.  All samples used for this exist when the beginning is 12 samples before the end of the array and the end 12 samples after its start.  Exception in the code: shorter signals use samples before the array.", "quantifier": "all random numbers, lengths, sample counts and spectra (exact arithmetic)", "why_tests_cant": "all random draws; out-of-bounds reads are silent", "anchors": ["fdelmodc/defineSource.c: randomWavelet", "fdelmodc/spline3.c: spline3"]}
{"id": "C87", "title": "Frequency filters of basop", "statement": "Time shift, phase rotation, differentiation and integration in time, multiplication with and division by sqrt(i om), sqrt(om), sqrt(k) and division by k give, for every trace, the samples of a signal whose spectrum is that of the zero-padded trace times the transfer function at the frequencies that pass and zero at the others; a frequency passes if the next one is above fmin and not above fmax, and zero frequency passes only in the shift.  A shift over m samples with the default frequencies is a circular shift of the padded trace, and a delay if the padding has m samples, for traces without a component at the highest frequency.  An operation followed by its counterpart restores the frequencies that pass.  Nothing else is written.  Exception in the code: with the default fmax the component at the highest frequency is lost, even by a shift over zero.", "quantifier": "every gather, sample distance, fmin, fmax and parameter, all lengths whose transform holds the trace (exact arithmetic)", "why_tests_cant": "identity between signals for all inputs; exact only in real arithmetic", "anchors": ["utils/basop.c: timeShift, phaseRot, timeDiff, sqrtk, div_sjom, div_som, divk, main"]}
{"id": "C88", "title": "Other operations of basop", "statement": "The envelope is sqrt(x^2 + h^2) with h the Hilbert transform, for traces without zero and highest frequency.  Rotation over 0 to nsam samples is a circular shift of every trace; whole seconds give the right number of samples.  Removing the average, per trace or of the gather, subtracts one value from the samples and leaves a sum of zero.  The reversal writes sample nsam-t at sample t.  Nothing else is written.  Exceptions in the code: the Hilbert transform has half its amplitude; the envelope of a constant is twice the constant; the reversal is one sample off from the times in the headers and loses sample 0; rotations outside 0..nsam access memory outside the trace; rotation times below one second become zero samples.", "quantifier": "every gather and number of samples and traces, all rotations and times (exact arithmetic)", "why_tests_cant": "identity between signals for all inputs; out-of-bounds accesses are silent", "anchors": ["utils/basop.c: hilbertTrans, Envelope, conjugate, timeRotate, rma, rmat, rcabs, main"]}
{"id": "C89", "title": "Stresses at the free surfaces of fdelmodc", "statement": "With a free side in an elastic scheme the normal stress on the boundary is set to zero, the shear stress is made odd around the boundary, which lies between two rows or columns of shear stresses, over two rows or columns, and the stress along the boundary becomes the one that Hooke's law gives for the strain rate along the boundary and a zero normal stress; no other stress changes, sides of another kind change nothing and several free sides act one after the other.  At the top this holds in the columns at the level of the column before them.  On a flat surface every order of the columns gives the same stresses.  Exceptions in the code: the stress along the boundary is overwritten instead of accumulated, so without motion the stress is lost; on a surface with a step the result depends on the order in which threads take the columns.", "quantifier": "every grid, surface, set of material parameters, velocities and stresses, every order of the columns (exact arithmetic)", "why_tests_cant": "must hold for all arrays and all schedules", "anchors": ["fdelmodc/boundaries.c: boundariesV"]}
{"id": "C90", "title": "Surface and sinking of sources and receivers in fdelmodc", "statement": "Before the modelling a source is placed sinkdepth rows below the first row, from its own row downwards, with a non-zero modulus, and a receiver below the first row that differs from the given value.  The position of the surface in every column of the model is the first row with a non-zero modulus, and in the absorbing layer at the left that of the first column.  Exceptions in the code: the positions in the layer at the right are copied from its last column, which is not initialised; the column after the last one, which the shear stresses use, is not initialised; the depth of a receiver is increased by sinkdepth only, not by the rows it sank; in a column without non-zero modulus the search continues in the next column and gives a row outside the model.", "quantifier": "every model, grid, boundary type, position and depth, every content of uninitialised memory", "why_tests_cant": "uninitialised memory has arbitrary contents that a test run cannot range over", "anchors": ["fdelmodc/fdelmodc.c: main", "fdelmodc/getParameters.c: getParameters"]}
{"id": "C91", "title": "Diffractors and elliptic bodies of makemod", "statement": "A diffractor of width w changes exactly the cells of a diamond, circle or square with half width w/2 (rounded down) around the nearest cell of its point: |dx|+|dz| at most w/2, distance below w/2+1/2, or from -w/2 up to w/2; an ellipse changes exactly the cells of the model inside it.  Every grid that is present gets its own values, where bodies overlap the last one counts, and other cells keep their values.  The reported interface has the depth of the last point of each column and zero elsewhere.  Diffractors at least their half width from the sides stay inside the model.  Exceptions in the code: squares of odd width are one cell smaller and those of one cell are not placed; diffractors nearer to a side write outside the grid; with shear velocities but no densities a grid that does not exist is written.", "quantifier": "every model, list of points, width, radius, type and cell size (exact arithmetic)", "why_tests_cant": "sets of cells for all shapes and positions; writes outside the grid are silent", "anchors": ["utils/diffraction.c: diffraction, makesquare, makediamond, makecircle", "utils/elipse.c: elipse"]}
{"id": "C92", "title": "Selection of sources by corrvir", "statement": "A virtual trace uses exactly the traces of those sources that occur at the same position in the gathers of the virtual source and of the receiver and that the selection accepts.  If positions in a gather differ there are at most as many pairs as sources.  Selections 3 and 4 accept the sources strictly beyond the virtual source, or strictly on its side of the receiver, in both coordinates.  Exceptions in the code: a position that occurs n times gives n*n pairs, more than the buffers hold; selection 1 rejects sources outside the rectangle that are outside in one coordinate only; selection 2 accepts every source.", "quantifier": "all gathers, positions and parameters of the selection", "why_tests_cant": "must hold for all sets of positions", "anchors": ["corrvir/corrvir.c: main"]}
{"id": "C93", "title": "Virtual traces of corrvir", "statement": "Without coherence and without the norm per source, the spectrum of a virtual trace is the sum over the selected pairs of conj(A) B for the frequencies in the band, divided by the number of pairs if normalisation is asked for, and zero above the band; with all frequencies its samples are the mean correlations of the two traces without wrap-around, at lag j (causal=1), -j (2), j-nt/2 (3) or the mean of both sides (4).  With the norm per source every pair is first divided by the norm of its spectrum.  With coherence each frequency is divided by the product of the amplitudes, plus a constant times the largest product where it is below the cut-off.  With fewer pairs than the minimum the trace is zero.  Exception in the code: where the product of the amplitudes is exactly the cut-off the coherence uses the factor of the sample before, and for the first sample an uninitialised variable.", "quantifier": "all data, lists of pairs, lengths, bands, and the four output modes, transform at least twice as long as the traces (exact arithmetic)", "why_tests_cant": "must hold for all signals; wrap-around shows only for some lags", "anchors": ["corrvir/corrvir.c: main", "corrvir/correlate.c: correlate, coherence"]}
{"id": "C94", "title": "Smoothing of gathers", "statement": "smooth replaces every sample, niter times, by the mean over the window of ntsm/2 samples and nxsm/2 traces to each side that lies inside the gather, computed from the values before the iteration; even widths are increased by one.  With power other than one this is done on that power of the data and the inverse power is taken at the end; zeroes stay zero for negative powers.  With power=1 the result stays between any bounds of the data, so constant gathers do not change.  Nothing outside the gather is written.", "quantifier": "every gather, width, number of iterations and power, any function pow (exact arithmetic)", "why_tests_cant": "must hold for all sizes; errors at the edges depend on the relation of sizes and widths", "anchors": ["utils/smooth.c: r_smooth, main"]}
{"id": "C95", "title": "Extension and truncation of models", "statement": "extendModel writes nbefore, all, and nafter traces, each with nabove samples before and nbelow after; every output sample is the nearest sample of the nearest trace of the input, and the positions continue in steps of dx, rounded towards zero.  truncate keeps every trace down to the truncation depth and repeats the value at this depth below it, for depths from the second to the last sample.  Exceptions in the code: more than 65535 samples do not fit in the header, which then differs from the data written; a truncation depth one sample behind the model is accepted and reads behind the data.", "quantifier": "every model, extension and depth", "why_tests_cant": "must hold for all sizes", "anchors": ["utils/extendModel.c: main", "utils/truncate.c: main"]}
{"id": "C96", "title": "Padding of models", "statement": "padmodel puts the model in the middle of the larger grid and, with the edges option, gives every cell beside it the value of the nearest cell of the model; with the constant option every cell beside it gets the constant.  All reads and writes stay inside the grid.  Exceptions in the code, when depth is padded too: all rows from number nz of the padded grid on repeat row nz-1 or get the constant, so that the deepest rows of the model are lost; with the constant option the cells above the model are zero.", "quantifier": "every model and padding", "why_tests_cant": "must hold for all sizes; the order of the loops matters", "anchors": ["utils/padmodel.c: main"]}
{"id": "C97", "title": "Rearrangement of snapshots", "statement": "reshape_su writes an array in which the first and the last of the four dimensions are exchanged, so that a second run with the sizes exchanged gives the original samples again.  Reading a part of a snapshot file delivers exactly the samples of that part, in the order of the file.  snap2shot puts into the trace of depth, position and shot the values of the snapshots of the file of that shot at that point.  Nothing is written behind the arrays.", "quantifier": "every size of the four or five dimensions and every part of the file", "why_tests_cant": "must hold for all sizes: the index maps have to be one to one", "anchors": ["utils/readSnapData3D.c: readSnapData3D", "utils/reshape_su.c: main", "utils/snap2shot.c: main"]}
{"id": "C98", "title": "Wavenumber filter", "statement": "The dip filter multiplies every sample of the wavenumber spectrum by a factor between 0 and 1 that is the same for both directions and does not grow with the wavenumber; Nyquist is always removed.  If the taper ends below Nyquist, all wavenumbers up to k sin(angle) pass unchanged (when the taper is at least one sample long) and all beyond the taper are removed.  All reads and writes stay inside the array for every positive fraction of the taper.  The filter is applied to the frequencies from fmin to fmax except zero, each with its own wavenumber; samples of all other frequencies are unchanged, not removed.  Exceptions in the code: with a fraction between -0.5 and 0 and an aliased wavenumber the filter writes before its array; the help of basop says cos(angle).", "quantifier": "every spectrum, frequency, angle, trace distance, number of wavenumbers and taper fraction", "why_tests_cant": "must hold for all real parameters and sizes", "anchors": ["utils/kxwfilter.c: kxwfilter, kxwfilt", "utils/basop.c: main"]}
{"id": "C99", "title": "Mute of snapshots", "statement": "mutesnap finds the arrival as the first of the largest samples of the first half, or as the first sample of that half above the tolerance (0 if there is none).  The mute around the centre is symmetric in time: nothing changes outside, a cosine taper of the given length follows, and everything further inside is zero; on an even number of samples the taper acts twice on the middle sample.  It stays inside the data and the taper for every arrival.  The mute at the beginning sets all samples to zero up to the taper and changes none after the arrival less shift.  Exception in the code: the taper of the mute at the beginning is always read before the start of its array.", "quantifier": "every trace, number of samples, arrival, shift and taper length", "why_tests_cant": "must hold for all traces and sizes; the reads outside the taper give no error", "anchors": ["utils/mutesnap.c: main, topdet, farrdet"]}
