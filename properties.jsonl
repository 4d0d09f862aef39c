{"id": "C01", "title": "Generator Read fills the whole buffer with the little-endian word stream", "statement": "For each built-in generator (LFG, MT64, Xoroshiro, Rexoroshiro, Xoshiro), Read(p) returns n = len(p) and a nil error, keeps len(p), and byte k of p becomes byte k mod 8 (little-endian) of the (k div 8)-th value that Uint64 would have returned from the state before the call.", "quantifier": "every generator state, every buffer length (including 0 and non-multiples of 8) and every prior buffer content", "why_tests_cant": "buffer lengths and states are unbounded; tests fill a handful of fixed sizes and only compare two runs of the same code", "anchors": ["lfg.go:LFG.Read", "mt64-19937.go:MT64.Read", "xoroshiro.go:Xoroshiro.Read", "xoroshiro.go:Rexoroshiro.Read", "xoshiro.go:Xoshiro.Read"]}
{"id": "C02", "title": "How far Read advances a generator", "statement": "After Read(p) the generator is in the state reached by a definite number of Uint64 calls: max(1, ceil(len(p)/8)) for LFG, MT64, Rexoroshiro and Xoshiro; floor(len(p)/8)+1 for Xoroshiro (which therefore throws a whole value away whenever 8 divides len(p)).", "quantifier": "every generator state and every buffer length", "why_tests_cant": "needs the post-state, for all lengths; tests never look at it", "anchors": ["lfg.go:LFG.Read", "mt64-19937.go:MT64.Read", "xoroshiro.go:Xoroshiro.Read", "xoroshiro.go:Rexoroshiro.Read", "xoshiro.go:Xoshiro.Read"]}
{"id": "C03", "title": "Splitting a read at 8-byte boundaries does not change the bytes", "statement": "For LFG, MT64, Rexoroshiro and Xoshiro, Read of 8a bytes (a>=1) followed by Read of b bytes (b>=1) delivers the same bytes and final state as one Read of 8a+b bytes. For Xoroshiro this is false: there is a state for which Read(8);Read(8) differs from Read(16).", "quantifier": "every state, every a >= 1 and b >= 1 (and a counterexample for Xoroshiro)", "why_tests_cant": "quantifies over all states and all split points", "anchors": ["xoroshiro.go:Xoroshiro.Read", "xoshiro.go:Xoshiro.Read", "lfg.go:LFG.Read", "mt64-19937.go:MT64.Read", "xoroshiro.go:Rexoroshiro.Read"]}
{"id": "C04", "title": "RNG.Uint64 on a generator follows the generator's own Uint64 stream", "statement": "For LFG, MT64, Rexoroshiro and Xoshiro the k-th call of RNG{g}.Uint64() returns exactly the k-th value of g.Uint64(). For Xoroshiro the k-th call returns value 2k of the Uint64 stream (every second value is skipped).", "quantifier": "every state and every number k of calls", "why_tests_cant": "unbounded histories; the values look equally random either way, so no statistical test sees it", "anchors": ["rng.go:RNG.Uint64", "xoroshiro.go:Xoroshiro.Read", "xoshiro.go:Xoshiro.Read"]}
{"id": "C05", "title": "Seeding erases history", "statement": "For every generator, after SeedIV(iv) (or Seed(x)) the state, hence every later observation, depends only on iv (x), not on what the object did before; a freshly constructed object and any used object become indistinguishable.", "quantifier": "every prior state of every generator, every iv of any length including nil", "why_tests_cant": "quantifies over all prior histories and seeds", "anchors": ["source.go:Seeder", "lfg.go:LFG.SeedIV", "mt64-19937.go:MT64.SeedIV", "xoroshiro.go:Xoroshiro.SeedIV", "xoshiro.go:Xoshiro.SeedIV"]}
{"id": "C06", "title": "Save then Restore reproduces the generator", "statement": "For every generator, Save writes exactly 4856 (LFG), 2498 (MT64), 16 (Xoroshiro, Rexoroshiro) or 32 (Xoshiro) bytes, and a generator of the same type, in any state, that Restores those bytes thereafter gives the same result as the saved one on every sequence of operations (Uint64, Int63, Read, Save).", "quantifier": "every state reachable by any history of operations, every target object, every later operation sequence", "why_tests_cant": "all histories and all continuations; tests compare one 8000-byte read", "anchors": ["source.go:Saver", "lfg.go:LFG.Save", "lfg.go:LFG.Restore", "mt64-19937.go:MT64.Save", "mt64-19937.go:MT64.Restore", "xoroshiro.go:Xoroshiro.Save", "xoshiro.go:Xoshiro.Save"]}
{"id": "C07", "title": "A short read during Restore leaves LFG, Xoroshiro, Rexoroshiro and Xoshiro untouched, but corrupts MT64", "statement": "If the reader delivers fewer bytes than the state size, Restore on LFG, Xoroshiro, Rexoroshiro and Xoshiro leaves the generator exactly as it was and returns the reader's n and err. MT64.Restore instead ignores n: a short read with nil error returns nil and installs a state padded with zero bytes; there is a reader for which this destroys a good state silently.", "quantifier": "every prior state, every reader behaviour allowed by io.Reader (any n <= len, any error)", "why_tests_cant": "quantifies over all reader behaviours; tests only use bytes.Buffer", "anchors": ["mt64-19937.go:MT64.Restore", "lfg.go:LFG.Restore", "xoroshiro.go:Xoroshiro.Restore", "xoshiro.go:Xoshiro.Restore"]}
{"id": "C08", "title": "Full read reported together with an error", "statement": "io.Reader may return all requested bytes together with a non-nil error (e.g. io.EOF). LFG, Xoroshiro, Rexoroshiro and Xoshiro then restore the state and return nil; MT64.Restore returns the error and leaves the state unchanged, so a complete saved state can fail to load.", "quantifier": "every prior state, every saved state, every error value", "why_tests_cant": "depends on reader behaviours that bytes.Buffer never shows", "anchors": ["mt64-19937.go:MT64.Restore", "lfg.go:LFG.Restore", "xoroshiro.go:Xoroshiro.Restore", "xoshiro.go:Xoshiro.Restore"]}
{"id": "C09", "title": "A Copy and its original are independent and identical", "statement": "Copy() yields a second object such that, in any interleaving of operations on the original and on the copy, each object produces exactly what it would have produced alone from the common state.", "quantifier": "every state, every interleaving of operations on both objects", "why_tests_cant": "all interleavings; tests run one read on each", "anchors": ["source.go:Copier", "lfg.go:LFG.Copy", "mt64-19937.go:MT64.Copy", "xoroshiro.go:Xoroshiro.Copy", "xoshiro.go:Xoshiro.Copy"]}
{"id": "C10", "title": "Xoroshiro has period exactly 2^128-1 from every non-zero state", "statement": "For every non-zero state s, n Uint64 calls return Xoroshiro (and Rexoroshiro) to s if and only if 2^128-1 divides n; the same numbers, and no others, are periods of the stream of returned values; one such orbit visits every non-zero state; the zero state is a fixed point that outputs 0 forever.", "quantifier": "all 2^128-1 non-zero states and all n", "why_tests_cant": "the cycle is astronomically long", "anchors": ["xoroshiro.go:Xoroshiro.Uint64"]}
{"id": "C11", "title": "Xoshiro has period exactly 2^256-1 from every non-zero state", "statement": "For every non-zero state s, n Uint64 calls return Xoshiro to s if and only if 2^256-1 divides n; the zero state is a fixed point that outputs 0 forever.", "quantifier": "all 2^256-1 non-zero states and all n", "why_tests_cant": "the cycle is astronomically long", "anchors": ["xoshiro.go:Xoshiro", "xoshiro.go:Xoshiro.Uint64"]}
{"id": "C12", "title": "Xoshiro.Jump advances by exactly 2^192 steps", "statement": "For every state, Jump() leaves the generator in the state that 2^192 Uint64 calls would produce.", "quantifier": "all 2^256 states", "why_tests_cant": "2^192 calls cannot be executed", "anchors": ["xoshiro.go:Xoshiro.Jump", "xoshiro.go:xoshiroJump"]}
{"id": "C13", "title": "Jumped Xoshiro streams do not overlap", "statement": "From a non-zero state, the streams started after 0,1,...,2^64-1 Jumps and run for at most 2^192-1 calls each visit pairwise disjoint sets of states; with 2^192 calls each, the last stream re-enters the first one's starting state (total length exceeds the period by one), so the Jumper promise is exact up to one state.", "quantifier": "every non-zero state, every pair of jump counts below 2^64 and every pair of offsets", "why_tests_cant": "astronomically many states", "anchors": ["source.go:Jumper", "xoshiro.go:Xoshiro.Jump"]}
{"id": "C14", "title": "Xoshiro.Reverse is the exact inverse of one Uint64 step", "statement": "For every state, Uint64 then Reverse, and Reverse then Uint64, both restore the state; n Reverses undo n Uint64 calls.", "quantifier": "all 2^256 states, all n", "why_tests_cant": "the existing test tries 1024 random states along one direction only", "anchors": ["xoshiro.go:Xoshiro.Reverse", "xoshiro.go:Xoshiro.Uint64"]}
{"id": "C15", "title": "Xoshiro is 4-equidistributed", "statement": "For every 4-tuple of 64-bit values there is exactly one state whose next four Uint64 results are that tuple; it is the zero state exactly for the all-zero tuple; starting from any non-zero state, every tuple other than all-zero occurs at exactly one position in [0, 2^256-1); four consecutive values determine all later ones.", "quantifier": "all 2^256 tuples, all starting states", "why_tests_cant": "cannot enumerate 2^256 tuples", "anchors": ["xoshiro.go:Xoshiro", "xoshiro.go:Xoshiro.Uint64"]}
{"id": "C16", "title": "MT64 outputs the tempered MT19937-64 recurrence", "statement": "For every state (any index, any 312 words) the values returned by successive Uint64 calls are the MT19937-64 tempering of the sequence u with u(n+312) = u(n+156) xor twist(upper 33 bits of u(n), lower 31 bits of u(n+1)), started from the state array at its index.", "quantifier": "every state, every index value, every number of calls", "why_tests_cant": "in-place block regeneration must be right at every index and in every block", "anchors": ["mt64-19937.go:MT64.Uint64"]}
{"id": "C17", "title": "MT64 distribution facts", "statement": "Tempering is a bijection on 64-bit words; 312 consecutive outputs determine all later ones, whatever the two states' indices; every 312-tuple of outputs comes from exactly one state with index 0; after 312 zero outputs only zeros follow, so the README claim that every 623-tuple of outputs occurs is false.", "quantifier": "all words, all states, all positions", "why_tests_cant": "quantifies over all states and the whole period", "anchors": ["mt64-19937.go:MT64.Uint64", "README.md"]}
{"id": "C18", "title": "LFG's real recurrence", "statement": "For every LFG made by NewLFG, SeedIV, Seed, Restore or Copy, outputs satisfy x[n] = x[n-1] + x[n-335] mod 2^64 for all n >= 335, so 335 consecutive values determine the stream. The documented recurrence S[n] = S[n-273] + S[n-607] is false: it fails for the stream after SeedIV(nil).", "quantifier": "every state reachable through the API, every n", "why_tests_cant": "an infinite stream relation over all seeds; the wrong recurrence looks random to tests", "anchors": ["lfg.go:LFG", "lfg.go:LFG.Uint64"]}
{"id": "C19", "title": "LFG seeding ignores most of the seed", "statement": "LFG.SeedIV does not use all bits of iv: two ivs of equal length that agree at all byte positions i with i mod 607 = 0 or i mod 607 >= 273 give identical generators. In particular LFG.Seed(x) and Seed(y) give identical generators whenever x = y mod 256.", "quantifier": "all ivs of all lengths, all 64-bit seeds", "why_tests_cant": "needs all pairs of seeds", "anchors": ["lfg.go:LFG.SeedIV", "lfg.go:LFG.Seed", "util.go:SeedInt64"]}
{"id": "C20", "title": "LFG never indexes out of range (when constructed), and the zero value does", "statement": "No sequence of SeedIV, Seed, Restore (any bytes), Uint64, Int63, Read, Save and Copy on an LFG from NewLFG panics. A zero-value LFG that was never seeded or restored returns 607 values and panics on call 608 (index out of range).", "quantifier": "every operation sequence of any length, every argument", "why_tests_cant": "all histories", "anchors": ["lfg.go:LFG.Uint64", "lfg.go:NewLFG"]}
{"id": "C21", "title": "MT64 never panics, whatever bytes are restored", "statement": "No operation sequence on an MT64 panics, including Uint64 after Restore of arbitrary bytes (any saved index 0..65535) and SeedIV with an iv of any length.", "quantifier": "every operation sequence, every restored byte string, every iv", "why_tests_cant": "all histories and inputs", "anchors": ["mt64-19937.go:MT64"]}
{"id": "C22", "title": "Seeds that kill a generator", "statement": "Seed(x) never kills Xoroshiro, Rexoroshiro, Xoshiro (their streams have the full period for every x) or MT64 (never 312 zeros in a row from the start); but SeedIV can: there is a 16-byte iv after which Xoroshiro and Rexoroshiro, and a 32-byte iv after which Xoshiro, return 0 forever.", "quantifier": "all 2^64 seeds; existence of bad ivs", "why_tests_cant": "random testing finds the bad iv with probability 2^-128 or 2^-256", "anchors": ["xoroshiro.go:Xoroshiro.SeedIV", "xoshiro.go:Xoshiro.SeedIV", "mt64-19937.go:MT64.Seed"]}
{"id": "C23", "title": "Distinct state-sized seeds give distinct generators", "statement": "SeedIV is injective on 16-byte ivs for Xoroshiro/Rexoroshiro and on 32-byte ivs for Xoshiro (hence onto all states), and Seed is injective on all 64-bit integers for Xoroshiro, Rexoroshiro, Xoshiro and MT64.", "quantifier": "all pairs of ivs / seeds", "why_tests_cant": "needs all pairs of 2^128 or 2^256 ivs", "anchors": ["xoroshiro.go:Xoroshiro.SeedIV", "xoshiro.go:Xoshiro.SeedIV", "mt64-19937.go:MT64.Seed"]}
{"id": "C24", "title": "Exact meaning of SeedIV for Xoroshiro and its structural collisions", "statement": "Xoroshiro.SeedIV(iv), iv non-empty, equals the closed form: split the zero-padded iv in 64-bit words w1..wm; a = sum over i<m of (G xor wi) + G mod 2^64; s1 = mix(a), s0 = mix((a xor wm) + G). Hence trailing zero bytes inside the last word and any reordering of w1..w(m-1) do not change the generator.", "quantifier": "every iv of every length", "why_tests_cant": "unbounded inputs, equality of states over all ivs", "anchors": ["xoroshiro.go:Xoroshiro.SeedIV"]}
{"id": "C25", "title": "RNG.Uint64/32/16 decode exactly the bytes read", "statement": "RNG.Uint64, Uint32 and Uint16 request 8, 4 and 2 bytes in one Read and return their little-endian value; every value of the type is produced by exactly one byte string, so uniform bytes give uniform integers. When the source delivers k < 8 bytes or an error, the missing bytes count as 0 and the error is not reported.", "quantifier": "every source behaviour, every byte string", "why_tests_cant": "all byte strings and all source failures", "anchors": ["rng.go:RNG.Uint64", "rng.go:RNG.Uint32", "rng.go:RNG.Uint16"]}
{"id": "C26", "title": "Uintn and Intn range, panics and termination", "statement": "For every source that returns: Uintn(max) panics iff max = 0; otherwise it returns the first value x drawn from Uint64 (truncated to the width of uint, 32 or 64 bits) with x <= MaxUint - MaxUint mod max, reduced mod max, so the result is < max; it consumes exactly the draws up to that one; it has not returned after n draws iff the first n draws are all above that bound, and there is a source on which it never returns. Intn(max) panics iff max <= 0 and otherwise behaves as Uintn.", "quantifier": "every max, every source and every sequence of draws, for 32- and 64-bit uint", "why_tests_cant": "all sources and unboundedly many rejections", "anchors": ["rng.go:RNG.Uintn", "rng.go:RNG.Intn"]}
{"id": "C27", "title": "Uintn is not exactly uniform", "statement": "Of the 256^8 possible draws, for 64-bit uint, exactly q = floor((2^64-1)/max) make Uintn(max) return r at once for each r in 1..max-1, and q+1 for r = 0 (likewise with the factor 2^32 for 32-bit uint); so for every max >= 2 Uintn is not uniform. With the bound x < q*max it would be.", "quantifier": "every max in [1, 2^64), every residue", "why_tests_cant": "a bias of 2^-64 is invisible to sampling", "anchors": ["rng.go:RNG.Uintn"]}
{"id": "C28", "title": "RNG.Big: size, panics and the lost byte", "statement": "For nbits <= 2^51 (larger buffers cannot be allocated): Big(nbits) panics iff nbits <= 0; otherwise it reads ceil(nbits/8) bytes and returns a number < 2^nbits. If 8 does not divide nbits every such number arises from exactly 2^(8-nbits mod 8) byte strings (uniform). If 8 divides nbits the top byte is always cleared, so only numbers < 2^(nbits-8) arise, each from 256 byte strings.", "quantifier": "every nbits, every source content", "why_tests_cant": "all widths and byte strings", "anchors": ["rng.go:RNG.Big"]}
{"id": "C29", "title": "RNG.Bign: range, panics, and unreachable results", "statement": "For max of fewer than 2^51 bits: Bign(max) panics iff max <= 0; it returns the first accepted Big(bitlen+1) draw mod max, a value in [0,max). When the bit length of max is 7 mod 8 every result is below 2^(bitlen-7), so e.g. Bign(100) is always 0. When it is not, each residue r>0 has the same number of accepted byte strings and residue 0 has more.", "quantifier": "every max, every source content", "why_tests_cant": "all big integers and sources", "anchors": ["rng.go:RNG.Bign", "rng.go:RNG.Big"]}
{"id": "C30", "title": "Uniform1_2 yields exactly the 2^52 doubles of [1,2), equally often", "statement": "Uniform1_2.Next reads 7 bytes and returns 1 + m/2^52 where m is the low 52 bits of those bytes; so 1 <= x < 2 always, and each of the 2^52 doubles in [1,2) comes from exactly 16 byte strings.", "quantifier": "all 2^56 byte strings", "why_tests_cant": "2^56 inputs; the existing test samples 2^28", "anchors": ["distr.go:Uniform1_2.Next"]}
{"id": "C31", "title": "Uniform0_1 yields exactly k/2^53, equally often", "statement": "Uniform0_1.Next reads 8 bytes and returns exactly k/2^53 (no rounding error) where k is their low 53 bits; so 0 <= x < 1, and every k is produced by exactly 2^11 byte strings.", "quantifier": "all 2^64 byte strings", "why_tests_cant": "2^64 inputs; the existing test samples 2^28", "anchors": ["distr.go:Uniform0_1.Next"]}
{"id": "C32", "title": "Uniform does not honour [Low, High)", "statement": "Uniform{Low,High}.Next returns the rounding of High*u + Low with u = m/2^52 (High*u rounded first unless the compiler fuses the expression): never below Low for High >= 0, never above the rounding of Low+High, and not confined to [Low,High): for 0 < High/2 <= Low <= High half of all draws give a result >= High; (Low=-1, High=1) gives only values in [-1,0); for Low < High <= 0 nothing above Low is ever returned. Only Low = 0 (with a normal High > 0) gives [Low,High).", "quantifier": "all byte strings, all finite Low and High; every choice of the compiler which x*y + z to fuse into one rounding", "why_tests_cant": "all inputs; also the claim in the documentation is about every Low, High", "anchors": ["distr.go:Uniform.Next"]}
{"id": "C33", "title": "Ziggurat: layer and abscissa selection", "statement": "GenNext uses bits 54..63 of the draw as layer i in [0,1024) and, when Mirrored, the low 54 bits as a two's complement integer j in [-2^53, 2^53), otherwise the low 53 bits; the magnitude compared with K[i] is |j|; no index is out of range; (i, j) and the draw determine each other (mirrored), so layers and abscissae are independent and uniform.", "quantifier": "all 2^64 draws; every choice of the compiler which x*y + z to fuse into one rounding", "why_tests_cant": "all draws, bit-twiddling on signed shifts", "anchors": ["ziggurat.go:Ziggurat.GenNext"]}
{"id": "C34", "title": "Mirrored ziggurat is symmetric", "statement": "For Mirrored ziggurats with an even PDF, replacing the j of a draw by -j negates the result exactly if that attempt decides (fast path, wedge or tail) and changes nothing otherwise. So for every number of words drawn equally many word sequences give x and -x, leaving aside those whose deciding j is 0 or -2^53. normalPDF is exactly even whatever math.Exp is, so Normal{0,1} has this symmetry.", "quantifier": "all draws, all tables, all PDFs that are even; every choice of the compiler which x*y + z to fuse into one rounding", "why_tests_cant": "all draws and tables", "anchors": ["ziggurat.go:Ziggurat.GenNext", "normal.go:Normal.Next"]}
{"id": "C35", "title": "Normal and exponential tables are a valid ziggurat", "statement": "In both shipped tables all 1024 entries of W and F are the correctly rounded decimal literals of the source; K[1] = 0, K[i] < 2^53, W and F are finite and positive, W[1..] strictly increases and F strictly decreases from 1; K[i] is within 2 of floor(2^53*W[i-1]/W[i]) for i >= 2; K[0] is floor(2^53*x_1023/x_0) exactly (exponential) or plus one (normal); all 1023 rectangles W[i]*2^53*(F[i-1]-F[i]) and the base strip have equal area to within relative error 1.1e-13; the tail constant R is within 5e-15 below the edge of the bottom layer.", "quantifier": "all 1024 entries of six tables", "why_tests_cant": "a single wrong digit in 6144 literals shifts the distribution by an amount no sampling test detects", "anchors": ["normal.go:normalK", "normal.go:normalW", "normal.go:normalF", "expo.go:expoK", "expo.go:expoW", "expo.go:expoF"]}
{"id": "C36", "title": "Exponential variates are non-negative, but not always finite", "statement": "For Rate > 0 finite and any math.Log that is <= 0 and not NaN on (0,1), -Inf at 0 (log_like): Exponential.Next never returns a negative number, -0 or NaN; but there is a draw sequence (tail layer followed by eight bytes with 53 zero low bits) for which it returns +Inf. If the uniform draw is never 0 and Log is within [-37, 0] on the other values, results are at most 48 for Rate >= 1.", "quantifier": "all draws, all positive rates (assuming math.Log/Exp obey their documented special cases and signs); every choice of the compiler which x*y + z to fuse into one rounding", "why_tests_cant": "+Inf has probability about 2^-64 per call", "anchors": ["expo.go:Exponential.Next", "expo.go:expoTail"]}
{"id": "C37", "title": "Normal tail can return infinity; otherwise lies beyond R", "statement": "Under the same premises on math.Log: normalTail returns a value >= normalR whenever it returns; an attempt whose first uniform is 0 is accepted iff the second is 0 too and then gives +Inf; Normal.Next then is +Inf, -Inf or NaN according to the sign of StdDev. Without zero uniforms the tail value is finite and <= 16.", "quantifier": "all draws (assuming math.Log's documented special cases); every choice of the compiler which x*y + z to fuse into one rounding", "why_tests_cant": "probability 2^-106", "anchors": ["normal.go:normalTail", "normal.go:Normal.Next"]}
{"id": "C38", "title": "XorCompose is the bytewise XOR of its sources, errors dropped", "statement": "XorCompose.Read fills p with A's bytes xor B's bytes (A read first, each with len(p) bytes), also when A and B share state, and always reports len(p), nil, even if A or B failed or were short. Whatever A delivers, each result comes from exactly one byte string of B: one uniform source suffices.", "quantifier": "every pair of sources (possibly aliased), every buffer", "why_tests_cant": "all sources", "anchors": ["util.go:XorCompose.Read"]}
{"id": "C39", "title": "SelectCompose is a bitwise multiplexer", "statement": "SelectCompose.Read sets every output bit to B's bit where S's bit is 1 and to A's bit where it is 0, reading S, then A, then B once each for len(p) bytes. For every S string of k bytes, each k-byte result comes from exactly 256^k pairs of A and B strings, so uniform A and B give uniform output whatever S does.", "quantifier": "every triple of sources, every bit position", "why_tests_cant": "all sources", "anchors": ["util.go:SelectCompose.Read"]}
{"id": "C40", "title": "AdaptRand on a Source64 streams its Uint64 values", "statement": "The adapter over a math/rand Source64 returns n = len(p), nil, and the little-endian bytes of max(1, ceil(len/8)) successive Uint64 calls.", "quantifier": "every Source64, every buffer length", "why_tests_cant": "all sources and lengths", "anchors": ["util.go:math642crazy.Read", "util.go:AdaptRand", "util.go:AdaptRand64"]}
{"id": "C41", "title": "AdaptRand on a plain Source does not give a full distribution", "statement": "The adapter over a plain Source uses two Int63 calls for every 8-byte group but the last and one for the last; so whenever 8 divides len(p), len(p)>0, the most significant bit of the last byte is always 0, and RNG{AdaptRand(src)}.Uint64() is always below 2^63, contrary to the documented full distribution. The two-call groups are uniform (each value has 2^62 of the 2^126 pairs) and so is a last group of fewer than 8 bytes.", "quantifier": "every Source, every buffer length", "why_tests_cant": "a bit that is always 0 for all sources is a universal statement", "anchors": ["util.go:math2crazy.Read", "util.go:AdaptRand"]}
{"id": "C42", "title": "Adapter seeding uses the first eight bytes, little-endian", "statement": "SeedIV on both adapters calls Seed once with the two's complement value of the first 8 bytes of iv zero-padded, so later bytes are ignored; SeedInt64(src,x) calls SeedIV once with the 8 little-endian bytes of x; the two are inverse to one another.", "quantifier": "every iv, every int64", "why_tests_cant": "all ivs and seeds", "anchors": ["util.go:math2crazy.SeedIV", "util.go:math642crazy.SeedIV", "util.go:SeedInt64", "util.go:CryptoSeeded"]}
{"id": "C43", "title": "AdaptCrazy produces the RNG stream as a math/rand Source64", "statement": "The Source64 from AdaptCrazy(src) returns RNG{src}.Uint64() for Uint64, its value shifted right once (so in [0,2^63)) for Int63, and Seed(x) seeds src with SeedInt64. Values that already implement the wanted interface are returned unchanged. Xoshiro is the only built-in generator without Int63, so it alone is wrapped.", "quantifier": "every Seeder, every value drawn", "why_tests_cant": "all sources", "anchors": ["util.go:AdaptCrazy", "util.go:crazy2math", "README.md"]}
{"id": "C44", "title": "RandString", "statement": "RandString(rng, alphabet, n), when it returns, has exactly n runes (in the sense of Go's UTF-8 decoding, invalid bytes counting as U+FFFD), all from the alphabet, the k-th being the alphabet's rune at the k-th Uintn(len) result; for an ASCII alphabet it has n bytes; it panics iff n < 0 or the alphabet is empty and n > 0.", "quantifier": "every source, alphabet and length", "why_tests_cant": "all alphabets, lengths and sources", "anchors": ["util.go:RandString"]}
{"id": "C45", "title": "Shuffles only permute, and can reach every permutation", "statement": "Shuffle, ShuffleInts, ShuffleFloat64s and ShuffleStrings always leave a permutation of the original elements, make len(data) index draws, all in range, and for every permutation there are draws producing it.", "quantifier": "every slice of any length, every source", "why_tests_cant": "all lengths and index sequences", "anchors": ["util.go:Shuffle", "util.go:ShuffleInts", "util.go:ShuffleFloat64s", "util.go:ShuffleStrings"]}
{"id": "C46", "title": "Shuffle is not uniform for three or more elements", "statement": "Even with perfectly uniform index draws, for every n >= 3 the n^n equally likely draw sequences cannot hit all n! orders equally often; for n <= 2 they do.", "quantifier": "every n", "why_tests_cant": "impossibility for every n; small bias for large n is not measurable", "anchors": ["util.go:Shuffle"]}
{"id": "C47", "title": "Yield delivers the distribution's stream, once, in order, and stops on quit", "statement": "In every interleaving, whatever other goroutines do to the two channels: the goroutine's values received by consumers followed by those still buffered are exactly the first variates, in order; exactly one further variate has been drawn if it waits in the select or has returned (a stopped yielder loses one), none otherwise; it never is more than cap+1 variates ahead of the consumers; it ends only by receiving from quit (or quit being closed), never if quit is nil, one signal stopping one yielder, and then draws and sends nothing; it panics only if Next does or over is closed. With quit signalled and the others idle it ends within room+1 further variates, but while consumers keep receiving it may deliver any number of further values.", "quantifier": "every schedule, any channel capacity, any number of receivers", "why_tests_cant": "all schedules", "anchors": ["util.go:Yield", "util.go:YieldUint64"]}
{"id": "C48", "title": "Rexoroshiro is Xoroshiro with bytes reversed", "statement": "Rexoroshiro.Uint64 returns Xoroshiro's value with its 8 bytes reversed from the same state and steps identically; Int63 is the low 63 bits of it (the other generators take the high 63 bits); Save/Restore/SeedIV/Seed agree with Xoroshiro's on the same state.", "quantifier": "every state", "why_tests_cant": "all 2^128 states", "anchors": ["xoroshiro.go:Rexoroshiro"]}
{"id": "C49", "title": "Int63 is always a non-negative int64", "statement": "Int63 of LFG, MT64, Xoroshiro (high 63 bits), Rexoroshiro (low 63 bits) and of AdaptCrazy's result lies in [0, 2^63) and advances the state by one Uint64 (AdaptCrazy: one 8-byte Read).", "quantifier": "every state", "why_tests_cant": "all states", "anchors": ["lfg.go:LFG.Int63", "mt64-19937.go:MT64.Int63", "xoroshiro.go:Xoroshiro.Int63", "xoroshiro.go:Rexoroshiro.Int63", "util.go:crazy2math.Int63"]}
{"id": "C50", "title": "MT64 seeding versus the reference implementation", "statement": "Seed(x) is the reference init_genrand64. nil/empty iv equals Seed(19650218). SeedIV is not the reference init_by_array64: there is a key whose little-endian bytes give a different first output (the code multiplies at another place, runs its first pass over bytes rather than words, and does not set mt[0] = 2^63).", "quantifier": "all seeds and all ivs of that size", "why_tests_cant": "all ivs", "anchors": ["mt64-19937.go:MT64.Seed", "mt64-19937.go:MT64.SeedIV"]}
{"id": "C51", "title": "LFG's period is far below the documented 2^670-2^63", "statement": "There is one number p < 2^362 that is a period of the stream of every LFG reachable through the API; and the documented 2^670 - 2^63 is not a period of any reachable LFG stream that contains an odd number.", "quantifier": "every state", "why_tests_cant": "periods are astronomically long", "anchors": ["lfg.go:LFG"]}
{"id": "C52", "title": "Exact meaning of Xoshiro.SeedIV", "statement": "Xoshiro.SeedIV(iv) equals: start from four SplitMix64 outputs; for each full 32-byte block step 4 times, xor the block's four words into the state, xor four further SplitMix64 outputs; for a remainder of r bytes (0<r<32) step ceil(r/8) times, xor the zero-padded words into the first ceil(r/8) state words and four SplitMix64 outputs into all four.", "quantifier": "every iv of every length", "why_tests_cant": "unbounded inputs", "anchors": ["xoshiro.go:Xoshiro.SeedIV"]}
{"id": "C53", "title": "Saved formats and streams are the published generators'", "statement": "Restoring four little-endian words s0..s3 into a Xoshiro makes Uint64 return exactly the published xoshiro256** outputs of that state and Save then writes the published state; the same for Xoroshiro (xoroshiro128+ with constants 55,14,36) from two words, Rexoroshiro giving the byte-swapped values; MT64's 2498-byte format is 312 little-endian words and a big-endian 16-bit index, and its values are those of MT19937-64 from that word array.", "quantifier": "every state, every number of calls, every reader delivering those bytes, every previous content of the object", "why_tests_cant": "all 2^256, 2^128, 2^19984 states and unbounded call counts", "anchors": ["xoshiro.go:Xoshiro.Uint64", "xoshiro.go:Xoshiro.Save", "xoshiro.go:Xoshiro.Restore", "xoroshiro.go:Xoroshiro.Uint64", "xoroshiro.go:Xoroshiro.Restore", "mt64.go:MT64.Restore", "mt64.go:MT64.Save"]}
{"id": "C54", "title": "Exact meaning of LFG.SeedIV", "statement": "LFG.SeedIV(iv) gives the stream of the recurrence u(n+335)=u(n+334)+u(n) mod 2^64 started from words 0..334 of the table with byte i of iv adding table word (iv_i+256i) mod 607 to word (i+334) mod 607, after 8*607 discarded values; the stream is independent of the object's previous content; the table is itself a run of 607 consecutive values of the generator.", "quantifier": "every iv of every length, every previous state, every number of calls", "why_tests_cant": "unbounded inputs and call counts", "anchors": ["lfg.go:LFG.SeedIV", "lfg.go:LFG.Uint64", "lfg.go:lfgS0"]}
{"id": "C55", "title": "What LFG.Save contains and Restore uses", "statement": "Save writes the last 335 values returned (oldest first) followed, after at least 607 calls, by the 272 values before those. Restore's later values depend only on the first 2680 bytes, and two LFGs that agree there have identical states after 272 calls. Every sequence of 335 values is produced by some restored LFG.", "quantifier": "every history, every pair of saved images, every 335-tuple of values", "why_tests_cant": "unbounded histories and all byte strings", "anchors": ["lfg.go:LFG.Save", "lfg.go:LFG.Restore"]}
{"id": "C56", "title": "Exact meaning of MT64.SeedIV, and it loses nothing of a short IV", "statement": "MT64.SeedIV(iv) for non-empty iv is one explicit sequence of words started from init_genrand64(19650218), mixing zero-padded words of iv cyclically for max(312, padded byte length) steps and then 311 final steps; the state is its last 311 words with word 0 repeating word 311. For IVs of one length up to 312 bytes, distinct IVs give distinct states and even distinct first 312 values. A zero byte that completes the last word changes nothing.", "quantifier": "every iv of every length; all pairs of equal-length IVs up to 312 bytes", "why_tests_cant": "2^2496 IVs and pairs of them", "anchors": ["mt64.go:MT64.SeedIV"]}
{"id": "C57", "title": "Distinct seeds give distinct streams", "statement": "128 consecutive values (even only their low bits) determine a Xoroshiro state, 128 a Rexoroshiro state, 4 a Xoshiro state; hence Seed(x) and Seed(y) with x<>y give different values within the first 128 (Xoroshiro, Rexoroshiro), 4 (Xoshiro), 312 (MT64) calls. For LFG the first 335 values differ exactly when x and y differ modulo 256.", "quantifier": "all pairs of states, all pairs of 64-bit seeds, every previous content of the objects", "why_tests_cant": "2^128 pairs of seeds", "anchors": ["xoroshiro.go:Xoroshiro.Seed", "xoshiro.go:Xoshiro.Seed", "mt64.go:MT64.Seed", "lfg.go:LFG.Seed"]}
{"id": "C58", "title": "LFG's seed table is what its comment says", "statement": "Restoring the words 0, 1, ..., 606 into an LFG and calling Uint64 2^34 times leaves the field s equal, word for word, to the table lfgS0.", "quantifier": "a run of 2^34 calls, 607 words", "why_tests_cant": "1.7*10^10 calls; and no test in the repository relates the table to its comment", "anchors": ["lfg.go:lfgS0", "lfg.go:LFG.Uint64"]}
{"id": "C59", "title": "Tails and parameters of the exponential and normal distributions", "statement": "If math.Log is accurate to relative error 2^-52 on (0,1): a tail draw of Exponential uses exactly one uniform u and is R - ln u up to 2e-14 (+Inf iff u = 0); a tail draw of Normal is Marsaglia's method: uniforms in pairs (u,v), a pair is returned as R - ln(u)/R up to 1e-14 when (ln(u)/R)^2 <= -2 ln v and rejected otherwise (boundary within 2e-13; v = 0 always accepts, u = 0 gives +Inf). For any source, Exponential{r}.Next is Exponential{1}.Next divided by r, and Normal{m,s}.Next is m + x*s (rounded twice, or once if the compiler fuses the expression) with x = Normal{0,1}.Next, reading the same bytes.", "quantifier": "all sources (any behaviour of Read within its contract), all draws, all rates, means and deviations (including 0, infinities, NaN); every choice of the compiler which x*y + z to fuse into one rounding", "why_tests_cant": "2^53 (2^106) uniform draws times all doubles as parameters; a statistical test cannot see an error of 1e-13 in the acceptance region", "anchors": ["expo.go:expoTail", "expo.go:Exponential.Next", "normal.go:normalTail", "normal.go:Normal.Next"]}
{"id": "C60", "title": "The ziggurat tables tabulate the exponential and normal densities", "statement": "For both shipped tables F[i] equals the density (exp(-x), exp(-x^2/2)) at the right edge 2^53*W[i] of layer i up to relative error 2e-15 (i = 1..1023), and F[0] is the density at 0. The base strip's width W[0]*2^53 is what makes its area the rectangle up to the last edge plus the whole area under the curve beyond it: exactly for the exponential table (width r+1), up to 1e-15*density(r) for the normal table (improper integral).", "quantifier": "every layer of both tables; the improper integral of the density beyond r", "why_tests_cant": "a statement about integrals and exact real values of the densities, which a test can only sample with the same floating-point functions", "anchors": ["expo.go:expoW", "expo.go:expoF", "normal.go:normalW", "normal.go:normalF", "ziggurat.go:Ziggurat"]}
{"id": "C61", "title": "Exponential has the exponential distribution", "statement": "When the source delivers independent uniform 64-bit words and math.Exp, math.Log are accurate to one unit in the last place, Exponential{Source: src, Rate: r}.Next returns a value at most x with probability 1 - exp(-r*x) (0 for negative x), up to 2e-11, for every positive finite rate and every x up to 2^1023. A call returns with probability 1.", "quantifier": "all rates, all real thresholds x, all word sequences (probability = limit of the fraction of the 2^(64n) tapes of n words), all accurate math.Exp and math.Log; every choice of the compiler which x*y + z to fuse into one rounding", "why_tests_cant": "a statistical test samples a vanishing part of the tapes and cannot bound the distance to the distribution; the error of table rounding, rejection, wedge test and tail has to be accounted for over all 2^64 draws and unboundedly many rejections", "anchors": ["expo.go:Exponential.Next", "expo.go:expoTail", "expo.go:expoPDF", "ziggurat.go:Ziggurat.GenNext", "distr.go:Uniform0_1.Next"]}
{"id": "C62", "title": "Normal has the normal distribution", "statement": "When the source delivers independent uniform 64-bit words and math.Exp, math.Log are accurate to one unit in the last place, Normal{Source: src, Mean: m, StdDev: s}.Next returns a value not above x with the probability that the normal distribution with mean m and standard deviation s (area under exp(-((t-m)/s)^2/2)/(s*sqrt(2*pi)) from minus infinity, total area 1) assigns to it, up to 3e-11 and one rounding of x: within 3e-11 for the standard normal and every real x, within 4e-11 wherever the spacing of doubles at x is below 1e-12 standard deviations, and always between the areas up to one rounding below and above x. A call returns with probability 1.", "quantifier": "all finite means up to 2^1022, all positive finite standard deviations, all thresholds x (up to 2^1022 in magnitude; every real x for the standard normal), all word sequences (probability = limit of the fraction of the 2^(64n) tapes), all accurate math.Exp and math.Log; every choice of the compiler which x*y + z to fuse into one rounding", "why_tests_cant": "a statistical test samples a vanishing part of the tapes and cannot bound the distance to the distribution; table rounding, sign handling, rejection, wedge test and the rejection loop of the tail have to be accounted for over all 2^64 draws and unboundedly many rejections", "anchors": ["normal.go:Normal.Next", "normal.go:normalTail", "normal.go:normalPDF", "ziggurat.go:Ziggurat.GenNext", "distr.go:Uniform0_1.Next"]}
{"id": "C63", "title": "How often values and tuples occur in a period", "statement": "In any 2^128-1 consecutive Uint64 calls on a Xoroshiro or Rexoroshiro with non-zero state, every 64-bit value occurs exactly 2^64 times, 0 once less; more generally every property of a value holds in exactly its fair share of the calls (once less if 0 has it). In any 2^256-1 consecutive calls on a Xoshiro with non-zero state, every tuple of k <= 4 consecutive values occurs exactly 2^(64(4-k)) times, all-zero tuples once less. Pairs of Xoroshiro values are not equidistributed: 0 is never followed by 1023, whatever the seed, and 0 is followed by 2^54 twice in each period.", "quantifier": "all non-zero states, all values, all tuples up to length 4, all properties of a value with a known number of values", "why_tests_cant": "the periods are 2^128-1 and 2^256-1 calls; that a pair never occurs ranges over all states", "anchors": ["xoroshiro.go:Xoroshiro.Uint64", "xoroshiro.go:Rexoroshiro.Uint64", "xoshiro.go:Xoshiro.Uint64"]}
{"id": "C64", "title": "The low bit of Xoroshiro is a linear recurring sequence", "statement": "The lowest bits of consecutive Xoroshiro.Uint64 values follow one fixed linear recurrence over GF(2) of order 128, the same for every state, and the lowest bits of any 256 consecutive values from a non-zero state follow no shorter one. The lowest bits of 128 consecutive values determine the state. In Rexoroshiro this bit is bit 56.", "quantifier": "all states, all stream lengths, all linear recurrences of order below 128", "why_tests_cant": "ranges over all 2^128 states and all 2^127 shorter recurrences", "anchors": ["xoroshiro.go:Xoroshiro.Uint64", "xoroshiro.go:Rexoroshiro.Uint64", "README.md"]}
{"id": "C65", "title": "Distribution of Uintn and Intn", "statement": "When the source delivers independent uniform words, Uintn(max) and Intn(max) return with probability 1, return r with probability exactly c/(q*max+1), where q = floor((2^b-1)/max) for b-bit uints and c = q (q+1 for r = 0); each such probability differs from 1/max by at most 1/(2^b-max).", "quantifier": "all widths b in {32,64}, all max and r, all tapes of uniform words (probability as the limit of the fraction of word lists)", "why_tests_cant": "a probability over all 2^(64n) word sequences, with a bias of 2^-60 that no sample shows", "anchors": ["rng.go: Uintn, Intn"]}
{"id": "C66", "title": "Distribution of RandString", "statement": "RandString(alphabet, n) returns a given string of n characters with the product of the shares of its characters: the characters are independent, and the share of a character is the sum of the Uintn shares of the positions where it stands in the alphabet (so repeated characters weigh more); without repetitions each share is within 1/(2^b-k) of 1/k, k the number of characters.", "quantifier": "all alphabets (any bytes, as Go decodes them), all target strings, both widths", "why_tests_cant": "a probability over all word sequences and all alphabets", "anchors": ["util.go: RandString"]}
{"id": "C67", "title": "Distribution of the shuffles", "statement": "Shuffling n elements gives an order with the total share of the sequences of n indices that swap the data into it, i.e. up to the bias of Uintn (number of such sequences)/n^n; for n >= 2 no order has exactly the probability 1/n!, and for three elements the unchanged order has probability 4/27 and the exchange of the last two 5/27 up to 2^-60, where a fair shuffle gives 1/6.", "quantifier": "all slices, all orders, both widths", "why_tests_cant": "a probability over all word sequences; the claim that no order is exactly fair ranges over all lengths", "anchors": ["util.go: Shuffle, ShuffleFloat64s, ShuffleInts, ShuffleStrings"]}
{"id": "C68", "title": "Any fitting ziggurat has the distribution of its curve", "statement": "For a Ziggurat with user-supplied tables that fit a decreasing continuous curve f (table entries close to the curve, PDF accurate), whatever its Tail function: on independent uniform words GenNext yields a value at most x with probability (area under f up to x + t * weight of the tail) / (total), up to 1e-8, where t is the probability that Tail yields a value at most x; mirrored likewise, with both signs.", "quantifier": "all curves f, all tables fitting them, all tail functions, all real x; every choice of the compiler which x*y + z to fuse into one rounding", "why_tests_cant": "quantifies over all densities, tables and tail functions and is about limits of probabilities", "anchors": ["ziggurat.go: Ziggurat, GenNext"]}
{"id": "C69", "title": "Clients depend on a source only through its words", "statement": "Uint64, Uintn, Intn, RandString, the shuffles, Uniform0_1, Exponential, Normal and a user's Ziggurat (with a Tail of the same kind) depend on their Source only through the words its 8-byte Reads deliver: whenever the source goes on to deliver words ws and the program on the tape ws returns v leaving ws' unused, the program on the source returns v and leaves the source exactly where drawing the used words leaves it. For every built-in generator but Xoroshiro those words are its Uint64 values.", "quantifier": "all sources, states, parameters, and sequences of words; every choice of the compiler which x*y + z to fuse into one rounding", "why_tests_cant": "quantifies over all sources and all word sequences, including ones where rejection loops run arbitrarily long", "anchors": ["rng.go: RNG, Uintn, Intn", "util.go: RandString, Shuffle", "ziggurat.go: GenNext", "expo.go: Next", "normal.go: Next"]}
{"id": "C70", "title": "Distributions for a generator with a random state", "statement": "Fill the state of an MT64 with 312 uniformly random words (position 0), or a Xoshiro with 4. Then the fraction of states from which Uintn, RandString, a shuffle, an Exponential or a Normal variate returns a given result differs from its probability on ideal independent words by at most the probability that the rejection loops need more words than the state holds: 2^-312 for MT64's Uintn; and Exponential and Normal variates from MT64 have the exponential and normal distributions to 10 digits.", "quantifier": "all parameters, all thresholds x, over all 2^19968 (2^256) states; every choice of the compiler which x*y + z to fuse into one rounding", "why_tests_cant": "it counts over all states of the generator; no sample can be exhaustive", "anchors": ["mt64-19937.go: MT64.Uint64, MT64.Read", "xoshiro.go: Xoshiro.Uint64, Read", "rng.go: Uintn", "util.go: RandString, Shuffle", "expo.go: Next", "normal.go: Next"]}
{"id": "C71", "title": "Restoring a generator reproduces everything drawn from it", "statement": "RNG (Uint64, Uint32, Uint16, Uintn, Intn, Big, Bign), the uniform, exponential and normal distributions, RandString, the shuffles, and any Ziggurat whose Tail does so too, touch their Source only by calling Read on it. Two sources that answer Reads equally, and keep doing so, therefore give every such program the same results. In particular, if the bytes Save wrote are Restored into any object of the same type, every program of this kind, of whatever adaptive structure, returns on the restored object what it returns on the original (or panics on both), and any sequence of method calls afterwards gives equal results on both.", "quantifier": "all generators and reachable states, all restoring objects, all adaptive programs that Read from their source, all later calls; every choice of the compiler which x*y + z to fuse into one rounding", "why_tests_cant": "quantifies over all adaptive programs and all generator states, including LFG states whose restored form differs internally from the original", "anchors": ["rng.go: RNG", "distr.go: Uniform, Uniform0_1, Uniform1_2", "util.go: RandString, Shuffle", "ziggurat.go: GenNext", "lfg.go: Save, Restore", "mt64-19937.go: Save, Restore", "xoroshiro.go: Save, Restore", "xoshiro.go: Save, Restore"]}
{"id": "C72", "title": "Successive draws are independent", "statement": "From a source of independent uniform 64-bit words, a value drawn after another one is independent of it and distributed as if the first had not been drawn: for any two conditions, the probability that the first value meets the first and the second value meets the second is the product of the two probabilities. Hence a sample of k values of Uintn, of exponential or of normal variates has the product of the single-draw probabilities (exactly for Uintn; within the single-draw errors of C61/C62 for the variates), although the number of words a draw takes is itself random.", "quantifier": "all pairs of programs that look at nothing beyond the words they draw, all conditions, all sample sizes, all bounds of Uintn, all rates, means and deviations, all libm-accurate Exp and Log; every choice of the compiler which x*y + z to fuse into one rounding", "why_tests_cant": "independence is a statement about the joint distribution over all word sequences, with an unbounded number of rejected candidates; a statistical test only fails to reject it.", "anchors": ["rng.go:RNG.Uintn", "expo.go:Exponential.Next", "normal.go:Normal.Next", "ziggurat.go:Ziggurat"]}
{"id": "C73", "title": "The uniform variates are uniform", "statement": "Uniform0_1 returns each multiple of 2^-53 in [0,1) with probability exactly 2^-53, Uniform1_2 each 1 + k*2^-52 with probability exactly 2^-52. Uniform{Low, High} is distributed uniformly on [Low, Low+High): for every x the probability of a value at most x differs from that of the exact uniform distribution by no more than 2^-52 + (2^-51(|Low|+High)+2^-1072)/High. Samples of any size have the product of the single probabilities.", "quantifier": "all finite Low and positive finite High with |Low|+High <= 2^1022, all thresholds x, all sample sizes; every choice of the compiler which x*y + z to fuse into one rounding", "why_tests_cant": "ranges over all floats Low, High and x with two roundings per variate; the distribution is a limit over all word sequences.", "anchors": ["distr.go:Uniform0_1.Next", "distr.go:Uniform1_2.Next", "distr.go:Uniform.Next"]}
{"id": "C74", "title": "The distribution of Big and Bign", "statement": "From independent uniform bytes: Big(nbits) is uniform on [0, 2^nbits) when 8 does not divide nbits, and uniform on [0, 2^(nbits-8)) when it does. Bign(max), b = bitlen(max)+1, q = floor((2^b-1)/max): when 8 does not divide b each r in (0, max) has probability q/(q*max+1) and 0 has (q+1)/(q*max+1); when 8 divides b each r < 2^(bitlen-7) has probability 2^-(bitlen-7), so Bign(100) is 0 with probability 1 - the loop stops almost surely, with no bound on the number of rejected candidates.", "quantifier": "all nbits up to 2^51, all max > 0 with fewer than 2^51 bits, all results", "why_tests_cant": "the law is a limit over all byte sequences with unboundedly many rejected candidates, for every bit length", "anchors": ["rng.go:RNG.Big", "rng.go:RNG.Bign"]}
{"id": "C75", "title": "Mixing a uniform source with any other keeps every distribution", "statement": "Whatever is drawn (Uintn, strings, shuffles, uniform, exponential and normal variates, any user ziggurat) from RNG{XorCompose(a, b)}, where one of a and b delivers independent uniform words and the other is any source whatever in any state (for instance any generator of the package, however badly seeded), has exactly the distribution it has when drawn from the uniform source alone, in either order of the arguments. The same holds for SelectCompose(s, a, b) with two independent uniform sources a and b and any selector s.", "quantifier": "for all programs that draw only words, all events, all second sources (selectors) that do not fail and all their states, both argument orders; in particular all generator kinds, all reachable states, all bounds, rates, means and thresholds; every choice of the compiler which x*y + z to fuse into one rounding", "why_tests_cant": "The claim is an equality of probabilities over all infinitely many word sequences and for every possible partner source; a statistical test sees one partner, one seed and a finite sample.", "anchors": ["util.go: XorCompose, SelectCompose, xorCompose.Read, selectCompose.Read", "rng.go: RNG.Uint64, RNG.Uintn", "expo.go: Exponential.Next", "normal.go: Normal.Next"]}
{"id": "C76", "title": "Sharing a generator between goroutines", "statement": "No method locks. In every schedule of any number of goroutines and generators: (1) if the calls of Uint64 on one generator never overlap (a mutex is held during each, or a single goroutine uses it), those calls return the generator's values, each exactly once and in order, leave the generator where as many sequential calls would, and nothing panics, whatever happens to other generators; in particular a goroutine with its own generator (from Copy or Jump) always receives exactly that generator's stream. If calls may overlap: (2) for every generator and every state there is a schedule in which two goroutines both receive the same value; (3) from every state of LFG and of MT64 there is a schedule of two goroutines that panics with index out of range; (4) Xoroshiro, Rexoroshiro and Xoshiro never panic, but from every non-zero state there is a schedule of two goroutines that leaves them in the all-zero state, after which every call by any goroutine, in any schedule, returns 0.", "quantifier": "every schedule of the field accesses of any number of goroutines, every number of objects of every kind, every reachable state", "why_tests_cant": "data races depend on the schedule: a test observes the few interleavings that happen to occur, and the harmful ones are rare", "anchors": ["lfg.go:LFG.Uint64", "mt64-19937.go:MT64.Uint64", "xoroshiro.go:Xoroshiro.Uint64", "xoroshiro.go:Rexoroshiro.Uint64", "xoshiro.go:Xoshiro.Uint64", "util.go:YieldUint64"]}
{"id": "C77", "title": "The same seed on different machines", "statement": "Go lets a compiler fuse x*y + z into one rounding (arm64, ppc64, riscv64, s390x do; amd64 does not), and math.Exp and math.Log are implemented separately per machine. On the same source: (1) Two builds that fuse differently, with the same Exp and Log, make Exponential.Next and standard Normal.Next behave differently (another value, another number of words drawn) on at most 6 in 10^13 of the possible sources, a sample of k variates on at most k times as many; likewise Normal with any mean and standard deviation if both fuse, or neither fuses, its last line. (2) With different accurate Exp and Log as well, on all but 8 in 10^12 of the sources both builds draw the same number of words and the variates, before scaling by Rate, or Mean and StdDev, are the same double or (in the tail) within 4*10^-14; for k variates k times as many. (3) the scaled normal variate is on every build within 2^-51 (|Mean| + |x StdDev|) of the exact Mean + x StdDev. (4) Uniform.Next always reads the same bytes; its results agree if Low = 0 and High >= 0 and otherwise differ by rounding only, at most 2^-50 (|Low| + |High|); (5) but they can differ: Uniform{Low: 4, High: 5} returns exactly 9 on amd64 and the double below 9 on arm64 when the source yields 0xff bytes.", "quantifier": "every pair of compilers (choice of fused expressions), every pair of Exp and Log accurate to about one ulp, every number of words available, every Rate, Mean, StdDev, Low, High, every sample size k", "why_tests_cant": "a test runs on one machine, and differences occur for a few words in 10^12", "anchors": ["ziggurat.go:GenNext", "expo.go:Exponential.Next", "normal.go:Normal.Next", "normal.go:normalTail", "expo.go:expoTail", "distr.go:Uniform.Next"]}
{"id": "C78", "title": "ziggurat.py finds the ziggurat of every decreasing density and tabulates it correctly", "statement": "For every continuous, strictly decreasing, integrable f on [0, oo) and every number of segments n >= 2 there is exactly one ziggurat with n layers of equal area. The function whose root the script's solve seeks is defined for every r > 0 (its loop ends) and is negative to the left of the base edge, positive to the right and zero at it; with mpmath's tolerance it is never of the wrong sign. What solve returns is that ziggurat; the initial guess always lies to the right. The ziggurat method with the exact numbers returns exactly the distribution f. K[i] counts exactly the cells of width W[i] that lie left of the edge above. The printed hexadecimal and decimal literals are read back by Go as the same numbers. The option -symmetric never changes anything.", "quantifier": "all decreasing densities, all numbers of layers, all trial values r, all tolerances below the height of the top layer, all abscissae, all float64 values, all command lines", "why_tests_cant": "running the script on the two shipped densities says nothing about other densities, and convergence on one density does not show that the sign of the target function is right everywhere or that the solution is unique", "anchors": ["ziggurat/ziggurat.py: solve", "ziggurat/ziggurat.py: mini", "ziggurat/ziggurat.py: tables", "ziggurat/ziggurat.py: format", "ziggurat/ziggurat.py: stringtable", "ziggurat/ziggurat.py: parseargs", "ziggurat.go: Ziggurat"]}
{"id": "C79", "title": "the shipped tables are the script's true answer", "statement": "The unique ziggurat with 1024 layers for exp(-x), and the one for exp(-x^2/2), have the layer area of the tables in expo.go and normal.go to relative error 3e-12, and their base edge is within 1e-11 of the last table edge and within 1.1e-11 of the constants expoR and normalR.", "quantifier": "the ziggurats are defined by real equations; the bound holds for the exact solutions", "why_tests_cant": "the exact solution is not a computable literal; a test can only compare two approximations", "anchors": ["expo.go: expoR", "expo.go: expoW", "expo.go: expoF", "normal.go: normalR", "normal.go: normalW", "normal.go: normalF", "ziggurat/ziggurat.py: solve"]}
{"id": "C80", "title": "ziggurat.py's tables in a Ziggurat draw from the density they were made for", "statement": "Let f be a strictly decreasing continuous density on [0,oo) with f(0)=1 that is neither too steep, too flat nor too large for 1024 layers and 53 bits (a precise condition, met by exp(-x) and exp(-x^2/2)). Take what ziggurat.py solves for 1024 layers (with any tolerance up to 1e-20; its default precision gives 2^-69), put the tables it prints (K as integers, W and F rounded to float64) into a Ziggurat, with a PDF that computes f to 2.5e-15. Then the tables fit f, and GenNext on uniform words yields a value at most x with probability (area under f up to x as far as r, plus the area beyond r times the probability that Tail yields a value at most x) over the whole area, up to 2e-8; with a Tail of the right conditional law it is the distribution function of f. Mirrored, the same with f reflected. Such float64 tables always exist.", "quantifier": "every density that meets the conditions, every x, every tail function, every accurate PDF, every choice of fused operations by the compiler", "why_tests_cant": "it is a statement about all densities and about probabilities under uniform words; a test can run the script for a few densities and draw samples", "anchors": ["ziggurat/ziggurat.py:solve", "ziggurat/ziggurat.py:tables", "ziggurat.go:GenNext"]}
{"id": "C81", "title": "The period of what Read and RNG deliver", "statement": "Let g be a Xoroshiro, Rexoroshiro or Xoshiro in any non-zero state, with cycle length P (2^128-1, 2^128-1, 2^256-1), and let a program fill buffers of n >= 1 bytes with g.Read again and again. If one such Read uses up c values of g (floor(n/8)+1 for Xoroshiro, ceil(n/8) for the others), the sequence of buffers has exact period P / gcd(c, P): buffer number i+p equals buffer number i for all i if and only if P / gcd(c,P) divides p. This holds although Xoroshiro.Read throws away a value when 8 divides n, and although a Read whose length is not a multiple of 8 shows only some bytes of its last value. In particular RNG.Uint64, RNG.Uint32 and RNG.Uint16 on these generators have exact period P (RNG.Uint64 on a Xoroshiro takes only every second value), and RNG.Uint64 on a Xoroshiro returns every non-zero value exactly 2^64 times per period and 0 exactly 2^64 - 1 times.", "quantifier": "every non-zero state of the three generators, every buffer length n >= 1, every candidate period p, every number of Reads", "why_tests_cant": "the period is at least 2^126; and that no shorter repetition exists in a subsequence of partly visible values is a statement about all of it", "anchors": ["xoroshiro.go: Xoroshiro.Read, Xoroshiro.Uint64, Rexoroshiro.Read", "xoshiro.go: Xoshiro.Read", "rng.go: RNG.Uint64, RNG.Uint32, RNG.Uint16"]}
{"id": "C82", "title": "The exact period of LFG", "statement": "Every LFG stream repeats after P = (2^187-1)*((2^108-1)/65)*2^63 values (2^351 < P < 2^352; the documentation says 2^670-2^63). After Seed(x) for any x, and after SeedIV with any iv of at most 273 bytes, P is the least period and every period is a multiple of P. For any reachable LFG the same holds unless the parities of its first 335 values are one of at most 2^227+2^148 exceptional patterns out of 2^335.", "quantifier": "all seeds, all ivs of at most 273 bytes, all previous contents of the object, all reachable generators, all candidate periods", "why_tests_cant": "A period of 2^352 cannot be observed; minimality needs that no smaller number is a period for any of the infinitely many positions.", "anchors": ["lfg.go: LFG.Uint64, LFG.SeedIV, LFG.Seed, lfgS0"]}
{"id": "C83", "title": "LFG states and IVs that ruin it", "statement": "For any two words a and b there is a state Restore accepts after which Uint64 returns a, b, b-a, -a, -b, a-b (mod 2^64) forever, a period of 6; and there is an iv of 9712 bytes after which SeedIV, whatever the object held before, leaves an LFG that returns 0 forever.", "quantifier": "all words a, b; all numbers of calls; all previous contents of the object", "why_tests_cant": "The claims are about the whole infinite stream, and the iv is one of 256^9712.", "anchors": ["lfg.go: LFG.SeedIV, LFG.Restore, LFG.Uint64, lfgS0"]}
{"id": "C84", "title": "Distributions for an LFG with a random state", "statement": "Restore an LFG from 607 words of which the first 335 are uniformly random (the other 272 may be anything). Then the first 335 values and those 335 words determine each other, so every sequence of 335 values comes from exactly one filling, and the fraction of fillings from which Uintn, RandString, a shuffle, an Exponential or a Normal variate returns a given result differs from its probability on ideal independent words by at most the probability that the rejection loops need more than 335 words: 2^-335 for Uintn; Exponential and Normal variates have the exponential and normal distributions to 10 digits.", "quantifier": "every 335-word filling, every remaining 272 words, every argument, every accurate math.Exp/Log, every choice of fused multiply-add", "why_tests_cant": "2^21440 states", "anchors": ["lfg.go: LFG.Uint64, LFG.Read, LFG.Restore", "rng.go: RNG.Uintn", "util.go: RandString, Shuffle", "expo.go: Exponential.Next", "normal.go: Normal.Next"]}
{"id": "C85", "title": "The periods of LFG's low bits, Reads and RNG methods", "statement": "From every reachable LFG the low j bits of the values (1 <= j <= 64) repeat after P_j = (2^187-1)*((2^108-1)/65)*2^(j-1) values. After Seed(x) for any x, after SeedIV with at most 273 bytes, and in every state but those with one of at most 2^227+2^148 parity patterns, these periods are exact, and so: Reads of n < 8 bytes have exact period P_(8n); Reads of n >= 8 bytes have exact period P/gcd(ceil(n/8), P) (P = P_64) even when the last value of each Read is cut off; RNG.Uint64 and Int63 have exact period P, RNG.Uint32 exact period P/2^32 and RNG.Uint16 exact period P/2^48.", "quantifier": "every state / seed / short IV, every number of bits, every buffer length, every candidate period", "why_tests_cant": "the periods are between 2^288 and 2^352", "anchors": ["lfg.go: LFG.Uint64, LFG.Read, LFG.Int63, LFG.Seed, LFG.SeedIV", "rng.go: RNG.Uint64, RNG.Uint32, RNG.Uint16"]}
{"id": "C86", "title": "Sequences of uniform doubles and of Int63 values: period and counts over a period", "statement": "Over a Xoroshiro, Rexoroshiro or Xoshiro in any state but the dead (all-zero) one, the results of successive Uniform0_1.Next calls repeat after p calls exactly if p is a multiple of the generator's cycle (2^128-1, 2^128-1, 2^256-1), although on a Xoroshiro each call uses up two values; the same holds for Uniform1_2.Next. Over one cycle Uniform0_1 returns each m/2^53, 0 < m < 2^53, exactly (cycle+1)/2^53 times and 0 once less; Uniform1_2 returns each 1+m/2^52 exactly (cycle+1)/2^52 times and 1 once less. Over an LFG seeded with Seed or with SeedIV of at most 273 bytes the exact periods are those of the low 53 and 52 bits. Int63 of Xoroshiro (which shifts) and Rexoroshiro (which masks) has exact period 2^128-1 and returns each value exactly 2^65 times per cycle, 0 once less.", "quantifier": "all states of the generator, all numbers of calls p, all doubles of the range, all seeds and short IVs", "why_tests_cant": "The periods exceed 2^128 calls; that no shorter repetition exists and that every double occurs equally often quantifies over whole cycles.", "anchors": ["distr.go: Uniform0_1.Next, Uniform1_2.Next", "xoroshiro.go: Xoroshiro.Read, Xoroshiro.Int63, Rexoroshiro.Read, Rexoroshiro.Int63", "xoshiro.go: Xoshiro.Read", "lfg.go: LFG.Read"]}
{"id": "C87", "title": "How many words of the source a draw uses", "statement": "Over independent uniform 64-bit words: Uintn(max) needs more than n words with probability exactly (((2^b-1) mod max)/2^b)^n, and 2^b/(q*max+1) <= 2 words on average (q = floor((2^b-1)/max)). Exponential.Next needs a second word with probability exactly 118488500128666672/2^64, more than n with at most that to the power ceil(n/2), and between 1.0064 and 1.013 words on average, whatever math.Exp and math.Log return. Normal.Next needs a second word with probability exactly 78888730561867289/2^64 and between 1.0042 and 1.009 on average, if math.Exp and math.Log are accurate. Costs of successive draws add, k draws cost k times the mean, and a shuffle of n items or a random string of n characters costs n times the mean of Uintn.", "quantifier": "all bounds, widths, rates, means, deviations, slices, alphabets, lengths and all sequences of words", "why_tests_cant": "a mean over all word sequences is not observed by finitely many runs; the number of words is unbounded", "anchors": ["rng.go: Uintn, Intn", "expo.go: Exponential.Next", "normal.go: Normal.Next", "ziggurat.go: GenNext", "util.go: RandString, ShuffleInts, ShuffleStrings, ShuffleFloat64s"]}
{"id": "C88", "title": "The means of the variates", "statement": "Over independent uniform 64-bit words, the mean of Uniform0_1.Next is exactly 1/2 - 2^-54 and that of Uniform1_2.Next exactly 3/2 - 2^-53; that of Uniform{Low, High}.Next is Low + High (1/2 - 2^-53) up to a few units in the last place (it is uniform on [Low, Low+High), C32); that of Uintn(max) is exactly (max-1)/2 * qm/(qm+1) with qm = floor((2^b-1)/max) max. If math.Exp and math.Log are accurate: the mean of Exponential{rate}.Next with values above M counted as M is within 2e-11 M of (1 - e^(-rate M))/rate, hence within a relative 1e-9 of 1/rate with M = 40/rate; the mean of Normal{mean, sd}.Next with values beyond mean -+ M counted as mean -+ M is within 8e-11 M of mean, hence within sd/10^9 with M = 10 sd, where doubles near mean are fine against sd. A mean is unique.", "quantifier": "all bounds, limits, all finite positive rates, all means and standard deviations with 2^-52 (|mean| + M) small against sd, all M in range, all math functions of the stated accuracy, all choices of fused operations", "why_tests_cant": "a mean over all word sequences is not observed by finitely many runs; a sample of n values settles it only up to 1/sqrt n", "anchors": ["rng.go: Uintn", "distr.go: Uniform0_1.Next, Uniform1_2.Next, Uniform.Next", "expo.go: Exponential.Next", "normal.go: Normal.Next", "ziggurat.go: GenNext"]}
{"id": "C89", "title": "Frequencies in a sample", "statement": "Let a draw (any program that only looks at the words it reads and returns with probability 1) satisfy a condition with probability p over independent uniform words. Then of k successive draws exactly j satisfy it with the binomial probability C(k,j) p^j (1-p)^(k-j), and the fraction that do differs from p by d or more with probability at most 2 e^(-k d^2/2). So for Uintn(max) the fraction of results r, for Exponential.Next and Normal.Next the empirical distribution function at every x (against the exponential and normal ones, with the margins of C61 and C62), converge exponentially fast.", "quantifier": "all sample sizes k, counts j, deviations 0 < d <= 1/2, bounds, results, rates, means, deviations, points x, and all sequences of words", "why_tests_cant": "frequency tests draw a few samples; the probability of a deviation is a statement about all word sequences", "anchors": ["rng.go: Uintn", "expo.go: Exponential.Next", "normal.go: Normal.Next", "ziggurat.go: GenNext"]}
{"id": "C90", "title": "The variances of the variates", "statement": "Over independent uniform 64-bit words, the variance of Uniform0_1.Next is exactly (1 - 2^-106)/12; the mean square of Uintn(max) on b-bit words (32 or 64) is (max-1)(2max-1)/6 times q max/(q max + 1), q = floor((2^b - 1)/max), so its variance is within max^2/(2^b - max) of (max^2 - 1)/12. If math.Exp and math.Log are accurate: the mean square of Exponential{rate}.Next with values above M counted as M is within 2e-11 M^2 of 2/rate^2 (1 - (1 + rate M) e^(-rate M)), hence the variance of values up to 40/rate is within a relative 1e-7 of 1/rate^2; the mean squared distance of Normal{mean, sd}.Next from mean, with distances above M counted as M, is within 8e-11 M^2 + (2M^2 + 2 M sd + 2 sd^2) e^(-(M/sd)^2/2) of sd^2, hence within a relative 1e-8 of sd^2 with M = 10 sd, where doubles near mean are fine against sd.", "quantifier": "all max below 2^b, all finite positive rates, all means and standard deviations with 2^-52 (|mean| + M) small against sd, all M in range, all math functions of the stated accuracy, all choices of fused operations", "why_tests_cant": "a variance over all word sequences is not observed by finitely many runs", "anchors": ["rng.go: RNG.Uintn", "expo.go: Exponential.Next", "normal.go: Normal.Next", "distr.go: Uniform0_1.Next", "ziggurat.go: GenNext"]}
