# Design

Target: `/repo` = zephyrtronium/crazy (Go PRNG library), pinned commit. The Go code is never
run; it is read as text and modelled by hand in Gallina.

## Model conventions

* `uint64`/`byte`/`big.Word` values are `N`; every Go operator that wraps is written with an explicit
  truncation (`add64`, `mul64`, `shl64`, ...). Signed quantities (`int`, `int64`) are `Z`.
  Array/slice indices and lengths are `nat`.
* A Go array or slice is a `list`; every index operation goes through `aget`/`aset`, which are
  partial: out of range is `Panic`, as in Go.
* Control effects: `outcome A := Ret a | Panic | OutOfFuel`. `OutOfFuel` only stands for
  "the loop has not finished after that many iterations"; theorems say for which inputs the loops
  finish, and no theorem treats `OutOfFuel` as a normal result.
* A method with a pointer receiver becomes a function returning the new state.
* `Source`/`io.Reader`/`io.Writer` are arbitrary step functions on an arbitrary "world" type `W`:
  `W -> buffer -> outcome (result * W)`; two sources may share the world, so aliasing is covered.
* `float64` is Flocq's IEEE-754 binary64 (`BinarySingleNaN`), with round-to-nearest-even, one rounding
  per Go operation. Go allows fusing `x*y+z`: for the three such expressions of the package, whether the
  compiler does is a parameter (`Model/Fused.v`), and the theorems hold for every choice.
  Floating-point literals are modelled by the binary64 value together with a checked proof that it is
  the correctly rounded decimal literal of the source.
* `math.Log`, `math.Exp` are parameters of the definitions that use them; what is assumed of them is a
  premise of each theorem that needs it.
* Goroutines/channels (`Yield`) are a labelled transition system.

## Properties

| id | model | method |
|----|-------|--------|
| C01-C04 | Read loops over any `Uint64` step (`> 8` and `>= 8` variants), per generator | induction on buffer length against a "byte k of the word stream" spec |
| C05 | SeedIV/Seed per generator as functions of the old state | direct; history quantified as any state |
| C06-C08 | Save/Restore over arbitrary writer/reader; op sequences | bisimulation (LFG: rotation of the ring buffer) |
| C09 | heap of generator objects, Copy allocates | simulation over interleavings |
| C10, C11 | one step as a GF(2)-linear map | characteristic polynomial kills the map; Bezout certificates for each prime factor of the order; Pocklington/Lucas primality proofs |
| C12, C13 | Jump loop | x^(2^192) mod the characteristic polynomial; non-overlap from the exact period |
| C14 | Reverse | bit-level algebra |
| C15 | Uint64 x4 | inverse linear map checked on a basis, lifted by linearity; positions from the exact period |
| C16, C17 | in-place twist loops | loop invariants against the declarative recurrence |
| C18-C21, C51 | ring buffer with f,t indices | invariant f = t + 334 mod 607; live window of 335 words; order of the feedback polynomial mod 2 lifted to 2^64 |
| C22-C24, C50, C52 | SeedIV loops | closed forms; SplitMix64 mixer is a bijection; witnesses by computation |
| C25-C29 | RNG over arbitrary source | counting lemmas; loop characterised by first accepted draw |
| C30-C37 | Flocq binary64 | exactness lemmas; full-table checks by kernel computation lifted with forallb_forall |
| C38-C43, C48, C49 | adapters | per-byte/per-bit specs |
| C44-C46 | RandString, shuffles | Permutation; selection-sort draws; divisibility n! | n^n fails |
| C47 | LTS | invariant over all executions |
| C53 | Save/Restore/Uint64 of Xoshiro, Xoroshiro, Rexoroshiro, MT64 | equality with transcriptions of the published generators (`Spec/RefGens.v`, `Spec/MtRef.v`) for every state and number of calls |
| C54, C55 | LFG.SeedIV, Save, Restore | sequence spec (`Spec/LfgRef.v`); ring buffer words as past values |
| C56 | MT64.SeedIV loops | one sequence (`Spec/MtSeedRef.v`); each step inverted, the MT recurrence run backwards |
| C57 | Seed + Uint64 | low bits obey the degree-128 recurrence; 4-word inverse; backward MT and LFG recurrences |
| C58 | LFG table | x^(2^34) modulo x^335 - x^334 - 1 over Z/2^64 by repeated squaring, proved correct for the sequence; computed with native 63-bit integers (Proofs/LfgFast.v proves the limb arithmetic) |
| C59 | tails, Rate, Mean, StdDev | relative-error calculus over Flocq's rounding; real ln; Marsaglia's loop as an inductive relation; x/1 = x, 0 + x*1 = x exactly |
| C60 | expo.go, normal.go tables | verified integer enclosures of exp (alternating Taylor sums, repeated squaring) for every entry; normal tail area by Laplace's continued fraction with Coquelicot integrals; the width W[0] in the doc comment (`v*PDF(r)`) should read v/PDF(r) |
| C61 | Exponential.Next, Ziggurat.GenNext, expoTail on a tape of words | Spec/Prob.v defines the probability by counting tapes; one round of the ziggurat is split into inside/tail/wedge fractions (ZigStep), wedge acceptance counted exactly (ZigAccept), summed over 2^53 abscissae as a Riemann sum of the density (Riemann, ZigBody), rounding of each abscissa and of W*j and F bounded (ZigFloat), the geometric series of rejections summed (affine_limit), the tail counted by inversion; hypotheses: math.Exp/math.Log within one ulp |
| C62 | Normal.Next, Ziggurat.GenNext (mirrored), normalTail on a tape of words | The Gaussian integral is proved (Gauss); the mirrored round is the mean over both signs of the one-sided round (ZigMirror); the acceptance probability of each Marsaglia attempt is counted and summed as a Riemann sum of exp(-rs - s^2/2) (NormalTail), its rejection loop solved as an affine recursion (NormalTailLaw); body, tail and base area are put together for positive thresholds and reflected for negative ones (NormalLaw); the affine map with its two roundings and overflow is handled in Props/NormalLaw.v |
| C63 | Uint64 of Xoroshiro, Rexoroshiro, Xoshiro | A full orbit maps positions one-to-one to non-zero states (OrbitCount), the states with a given value or 4-tuple are counted by a bijection; for the missing pair, a and -a differ exactly above the lowest set bit, which leaves 64 candidate states to compute |
| C64 | Uint64 of Xoroshiro and Rexoroshiro | The certified characteristic polynomial of C10 annihilates the transition; the low bit is a linear functional; a shorter recurrence would annihilate the whole orbit, which contains a state whose first low 1 comes after 127 zeros |
| C65 | `RNG_Uintn`, `RNG_Intn` on a tape of words; `draw_prob` (limit of fractions of word lists) | rejection step as an affine recurrence of probabilities, its limit (Coquelicot), splitting 2^b into accepted and rejected words |
| C66 | `RandString` on a tape of words | the law of k Uintn draws (C65 machinery) composed with C44 (which characters the draws select) |
| C67 | `ShuffleSlice` on a tape of words | C45 (calls made) with the law of n Uintn draws; divisibility: n divides n! but not (q n + 1)^n; exact computation for n = 3 |
| C68 | `GenNext` on a tape with an arbitrary `Ziggurat`; `zig_for` (Spec/ZigFit.v) says when tables fit | area of each layer under the curve as Riemann sums (the machinery of C61/C62, for any f), rejection as an affine recurrence, error analysis of the quotient |
| C69 | every client in Model/Rng, Util, Ziggurat, ExpoNormal over an arbitrary reader | simulation between the reader and a tape of words (Proofs/GenTape), closed under bind and the loops |
| C70 | MT64 and Xoshiro from arbitrary states, clients as in C65-C67, C61, C62 | bijection between states and blocks of outputs (C17), transfer of the law by C69 with the error of running out of words (Proofs/GenLaw) |
| C71 | clients as functions of an arbitrary reader; `read_program` (Spec/ReadProg.v): interaction trees of Reads | each client is shown to be a read program by composition; bisimulation of restored states (C06) lifted to all read programs by induction on the program |
| C72 | draw programs run one after the other on a tape of ideal words | convolution of the stopping-word counts: the joint probability is a sum over the position where the first draw stops, whose limit is the product |
| C73 | Uniform0_1_Next, Uniform1_2_Next and Uniform_Next over the binary64 model and a tape of ideal words | counting residues mod 2^53 / 2^52 for the exact laws; Flocq rounding error bounds to sandwich the event {value <= x} between two exact counts |
| C74 | RNG_Big, RNG_Bign on a tape of bytes | exact counts of accepting byte strings of each length by block recursion; geometric limit |
| C75 | XorCompose_Read, SelectCompose_Read on a pair of independent states; RNG clients over them (Spec/Mixing.v, Props/Mixing.v) | the words delivered are the wordwise xor (mux) of the sources' words; on word lists of each length that map is a bijection (2^(64n)-to-1 for SelectCompose), so counts, hence limits of probabilities, agree; clients transfer by C69 |
| C76 | each Uint64 method as the sequence of its reads and writes of the fields (Model/Shared.v), interleaved arbitrarily; sequentially consistent memory, every field read of the source a load | (1) the access sequences are proved to be the methods of the rest of the model when undisturbed, then an invariant over schedules; (2)-(4) explicit schedules for every state: walking to a critical index, or along the full-period orbit (C10, C11) to a state from which torn writes produce zero; zero is proved absorbing under every schedule |
| C77 | the two runs coupled on one tape: GenNext, the tails, Exponential, Normal under two values of the compiler parameter of Model/Fused.v and two math_exp, math_log; Spec/Portable.v (differ_at_most, alike) | the two wedge tests can disagree only for second words in a window of width <= 4000 + 2^53 * 10^-14 f/(f_(i-1) - f_i) (mean <= 45/10^14, or 55/10^13 with two exps), the two normal tail tests only in a window exp(-q^2/2 +- 10^-13); first-disagreement recursion B >= D + miss*B; samples by q12_sum (Independent.v); rounding by Bfma_correct; (5) by vm_compute |
| C78 | Model/ZigScript.v: solve, mini with its loop, tables, parseargs as relations and functions over the reals (mpmath's arithmetic, quadrature and root finding are idealised as exact; almosteq keeps its tolerance), hexadecimal and decimal formatting. Spec/ZigBuild.v: decreasing densities, the ziggurat of n layers, one trial of the ideal method. | existence: the edges as functions of the area, built upwards from 0 with a least upper bound (no choice axiom), continuous by induction, then the intermediate value theorem; uniqueness and the sign of mini by comparing two ladders step by step; termination because every step climbs at least v/r; the law by summing clamped layers under the integral; read-back of literals from the spacing of float64 numbers |
| C79 | the tables of C35/C60 and the ziggurats of C78 | a staircase whose layers have area between lo and hi has lo <= v <= hi, by comparing ladders; the areas of the table layers with the true densities from C35, C60; the base edge from the slope of the base area |
| C80 | the script's real calculation (C78), its tables rounded to float64, GenNext of C68 on tapes of words | from the exact ladder of C78 and the rounding of W, F: each requirement of zig_for by error analysis for arbitrary f; then C68, and the areas of the tables against the integrals of f; existence of the float64 tables by bounds; conditions checked for both shipped densities |
| C81 | the Read methods over their Uint64 steps, sequences of Reads (`Spec/Blocks.v`), RNG_Uint64/32/16 | a block repeats iff its visible bytes do (Proofs/BlockProofs.v). Xoshiro: the low bit of its second word can be computed from the low byte of the value, is linear, and all of its orbit determines the state. Xoroshiro: low bits; when a value in every c is hidden, the states at block starts whose visible low bits vanish are at most 2^(128-m), fewer than an orbit of the c-th power of the step. Rexoroshiro shows the top bit of the sum, which is not linear: the only non-zero difference that never changes it is (2^63, 2^63), so a power of the step that preserves the top bits fixes that difference, and by C10 is the identity |
| C82 | the LFG model (C18, C54); parities as sequences over GF(2), words as sequences modulo 2^64 | order of x modulo the factors of degree 108 and 187 of x^335+x^334+1 with Lucas-certified prime factors; lifting from mod 2 through mod 4 to mod 2^64; parity patterns counted by injection |
| C83 | the LFG model and its seed table | x^2-x+1 divides x^335-x^334-1, so the cycle satisfies the recurrence; the iv is explicit and its 335 window words are computed to be 0 in the kernel |
| C84 | LFG over 335 random words, all clients | explicit inverse of the first 335 values (Props/LfgRandom.v), then the generator law of C70 |
| C85 | LFG, its Read and Int63, RNG's integer methods | doubling of periods bit by bit from the parities (Proofs/LfgLow.v); the recurrence supplies the hidden words (Proofs/LfgBlocks.v); for Int63 autocorrelations show that a periodic integer solution of the recurrence has period 6 (Proofs/LfgHigh.v) |
| C86 | Uniform0_1_Next, Uniform1_2_Next over the Read of each generator; Xoroshiro_Int63, Rexoroshiro_Int63 | one call = a function of the low 53 (52) bits of the next value; the low byte (top bit of the sum) of all values determines the state; every second value suffices because the cycle is odd; counts by the orbit being all non-zero states and a bijection of states with (value, rest) |
| C87 | the programs on a tape of words (Model/Rng.v, Model/Ziggurat.v, Model/ExpoNormal.v with all table entries); Spec/Cost.v defines the cost | the rounds of GenReturns.v with the exact number of accepted words per layer summed over the K tables by computation; geometric and two-step recurrences; Cauchy product of series for additivity |
| C88 | the programs on a tape of words (Model/Distr.v, Model/Ziggurat.v, Model/ExpoNormal.v); Spec/Mean.v defines the mean as the limit of averages over all tapes of n words | layer-cake sums: the clamped value is sandwiched between step functions whose averages tend to sums of the distribution functions of C61 and C62, and those sums are within a step of the integral; exact sums for the uniform variates |
| C89 | the programs on a tape of words; Spec/Frequency.v defines how many elements of a list satisfy a condition | induction on k with the independence of C72 and additivity over disjoint events gives the law of the count; Chernoff bound with e^x <= 1 + x + 2x^2 |
| C90 | the programs on a tape of words, means as in C88 (Spec/Mean.v) | layer-cake sums in the square of the variable, with the antiderivatives of t e^(-rt) and t (1 - Phi(t)); every event has a probability (monotone limits), so that of an interval is a difference; Uintn: a finite sum over C65 |

Where a property as first written turned out to be false of the code, the statement in
`properties.jsonl` was corrected to what the code does and that is what is proved (C17, C18, C27, C28,
C29, C32, C36, C37, C41, C46, C50, C51 contain such refutations of the documentation).

## Layout

* `rocq/theories/Model/` - the code, function by function, each definition citing file and lines.
* `rocq/theories/Spec/` - vocabulary of the statements: what a uint64 is, "successive calls return these
  values" (`runs`), "exactly n inputs do this" (`has_exactly`), MT19937-64's reference recurrence and seeding,
  the ziggurat algorithm as a relation, values of floats, channel vocabulary. It uses the state types of
  Model, never its algorithms (except `MtRef`/`Zig`, which are independent descriptions of them).
* `rocq/theories/Proofs/` - lemmas. `rocq/theories/Props/` - the theorems named `Cnn_...` listed in
  `MANIFEST.json`, each group followed by an `Example Cnn_nonvacuous...`.
* `tools/mkzig.py` generates `Model/ExpoTable.v` and `Model/NormalTable.v` from /repo/expo.go and
  /repo/normal.go (hexadecimal K verbatim; W and F as decimal mantissa/exponent verbatim from the source next to
  the binary64 value; that the latter is the correctly rounded former is theorem C35_*_literals, so the
  generator is not trusted for W and F beyond copying decimal digits). `tools/mkmanifest.py` writes MANIFEST.json.

## Trusted base

1. Coq 8.16.1's kernel (including its VM for the large `vm_compute`/`vm_cast_no_check` checks; coqchk re-checks
   them without the VM) and the parser/pretty-printer showing what was stated.
2. `Print Assumptions`:
   the exact list for every theorem of MANIFEST.json is in `ASSUMPTIONS.md` (generated by `tools/assumptions.py`
   from `Print Assumptions`). In short:
   * most theorems are closed under the global context;
   * theorems that mention real numbers (Props/{Uniform, Zig, ExpoNormal, Tails, ...}) depend on
     `ClassicalDedekindReals.sig_not_dec`, `ClassicalDedekindReals.sig_forall_dec`,
     `FunctionalExtensionality.functional_extensionality_dep` and `Classical_Prop.classic`: the standard library's
     axioms of the reals and what Flocq and Coquelicot use of classical logic;
   * C58 computes with the kernel's native 63-bit integers: it lists the primitives `PrimInt63.*` and the standard
     library's `Uint63.*_spec` axioms that specify them.
   No other axioms. No axioms of our own.
3. The reading of the Go code by hand. What is modelled:
   * lfg.go, mt64-19937.go, xoroshiro.go, xoshiro.go: everything (constructors, Seed, SeedIV, Uint64, Int63, Read,
     Save, Restore, Copy, Jump, Reverse, all constants and the 607-word table);
   * rng.go: everything. `uint` of 32 and 64 bits for Uintn/Intn; 64-bit `int` for Big/Bign; the dead slice `n`
     of Bign is dropped; `make([]byte, n)` panics above 2^48 bytes, otherwise allocation succeeds;
   * distr.go, ziggurat.go, expo.go, normal.go: everything, tables included; the constructors
     NewExponential/NewNormal are record building;
   * util.go: everything. RandString's `make([]rune, length)` is assumed to succeed for length >= 0; string/rune
     conversion follows the Unicode table of Go's UTF-8 decoder (Model/Utf8.v);
     CryptoSeeded: crypto/rand.Reader is an arbitrary source.
   * ziggurat/ziggurat.py: solve, mini, tables, parseargs, and the formatting of single numbers, with real numbers in
     place of mpmath's (80-bit) floating point, the integral in place of its quadrature and an exact root in place of
     its secant iteration (that the iteration converges is not claimed; C78 shows what it converges to if it does);
     mpmath.almosteq keeps its tolerance. The layout of the printed text and the progress output are not modelled.
   Not modelled: the tests; go1.9 build tags; `math/rand`'s own generators
   (a Source/Source64 is an arbitrary object).
4. Go semantics assumed: wrap-around of unsigned arithmetic, slices cannot change their length in a callee,
   a Read method stores bytes and returns any (n, err); interface type switches as in Model/Util.v; in
   Model/Yield.v goroutines share only channels (an interleaving semantics with the select/close/nil rules of the
   Go specification; scheduling is arbitrary); in Model/Shared.v they share generators, whose Uint64 methods are
   sequences of loads and stores of the fields, interleaved arbitrarily under sequential consistency (Go's memory
   model allows racy programs more than that; the other models take a method call as one step, which C76 shows
   sound when calls do not overlap).
5. Floating point: IEEE binary64, round to nearest even. The Go specification lets a compiler fuse `x*y + z` into one
   operation with one rounding (arm64, ppc64, riscv64 and s390x do, amd64 does not): which of the three such
   expressions of the package are fused is a parameter of the model (Model/Fused.v) and every theorem holds for every
   choice. No other fusion is possible (there is no other product with a sum around it). NaN is a single value (no payloads). `math.Log`/`math.Exp` are
   arbitrary functions except where a theorem names a hypothesis on them: `log_like`, `log_bounded` (C36, C37, C59),
   `accurate_exp`, `accurate_log` (within one unit in the last place: C61, C62, C77).

## Findings (code or documentation disagreeing with itself)

* Xoroshiro.Read drops a value whenever 8 divides len(p) (C02-C04).
* MT64.Restore ignores short reads and rejects a complete read that comes with io.EOF (C07, C08).
* LFG does not implement the documented lags (C18), ignores seed bytes (C19), has a period below 2^362 (C51) - exactly (2^187-1)*((2^108-1)/65)*2^63,
  about 2^352, after any Seed or any SeedIV of at most 273 bytes (C82) -, has states of period 6 and an all-zero state that a
  9712-byte IV reaches (C83), and an unseeded zero value panics (C20).
* SeedIV can reach the all-zero state of Xoroshiro, Rexoroshiro and Xoshiro (C22) and of LFG (C83).
* Uintn is biased towards 0 by one draw (C27); Big(8k) loses its top byte (C28), which makes Bign(100) constant (C29).
* Uniform{Low, High} is Low + High*u (C32), and its values depend on whether the compiler fuses (C77). Exponential and Normal can return infinities (C36, C37).
* AdaptRand on a plain Source has a constant bit (C41). Shuffles are not uniform (C46).
* Unsynchronised sharing between goroutines repeats values, panics (LFG, MT64) or zeroes the state for good
  (Xoroshiro, Rexoroshiro, Xoshiro) (C76). A stopped yielder has discarded one variate (C47). The README's 623-equidistribution of MT64 is false (C17).
* MT64.SeedIV is not init_by_array64 (C50).
* ziggurat.py: `symmetric` is True by default, so the option -symmetric has no effect, and there is no way to get the
  unsymmetric 32-bit tables (im = 2^32) (C78_symmetric). `main` restores mpmath's precision before formatting, so the
  constants R and V are printed with 15 digits (hence expoR = 9.25616454426554), while the tables have 18.
