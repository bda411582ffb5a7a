# Formal model of CUHKSZLib: design

## 1. Approach

Each module of `/repo/src` is read as text and transcribed, function by function, into executable
Gallina in `rocq/theories/<Mod>Model.v`. Every definition cites the file and lines it follows and
names its simplifications. Independent specifications live in `<Mod>Spec.v` (textbook notions only:
RFC tables, least edit scripts, first occurrences, rationals, finite sets, depth-indexed parents,
plain trees, cumulative distribution functions). Lemmas are in `<Mod>*Proofs.v`; the named property
theorems are in `<Mod>Properties.v`, which holds only theorems, `Print Assumptions` and concrete
examples that satisfy the hypotheses.

Outcomes. A C++ call is modelled by `outcome A`:

| outcome | meaning |
|---|---|
| `Ok a` | the call returns `a` |
| `Err` | `cuhksz::error(...)` (message and `exit(EXIT_FAILURE)`), a failed `assert`, or an exception that leaves the call |
| `UB` | undefined behaviour (out-of-bounds access, signed overflow, null dereference, use after free, double free, read of an indeterminate value, ...) |
| `Fuel` | the fuel of a loop/recursion was exhausted; theorems either exclude it or, for non-termination results, state it for *every* fuel |

Integers are unbounded `Z`; where a property concerns overflow the model checks the range of the C++
type and yields `UB` (signed) or wraps (unsigned, or explicit conversions). `std::string` is a list
of bytes (`ascii`). Pointers become indices into explicit heaps. `double` is IEEE-754 binary64
(`Float.v`, on the standard library's `SpecFloat`; facts about rounding come from Flocq) wherever a
property says "binary64", and exact rationals or reals where it says "exact arithmetic".

## 2. Trusted base

Trusted:

* the Coq 8.16.1 kernel (including `vm_compute`);
* the axioms that `Print Assumptions` lists (section 5): most theorems have none; those about
  real numbers or binary64 use the standard library's axioms of the classical reals
  (`sig_forall_dec`, `sig_not_dec`, `functional_extensionality_dep`, `classic`). No axiom of another
  library and no axiom of our own occurs; no `Admitted`, plugin, functor or disabled check is used;
* the reading of the C++ (the models, their citations, and this document);
* the C++11 standard library being what the standard says: vectors and deques are sequences,
  `std::map`/`std::set` are sorted sequences searched by `lower_bound`/`upper_bound`, `num_get`
  parses ints as specified, `isspace`/`isalnum` in the "C" locale, conversions out of the `int` range are modular
  (as on all mainstream compilers), `mt19937_64` as in the standard (`Rand64.v`).

What is modelled, and what is left out, per source file:

| source | modelled in | left out |
|---|---|---|
| `base64/base64_functions.cpp` | Base64Model | - |
| `network/network_functions.cpp` | UrlModel | locales other than "C" |
| `algorithm/kmp.cpp`, `edit_distance.cpp` | KmpModel, KmpCostModel (comparisons), EditModel | - |
| `algorithm/Zip.h`, `Filter.h`, `Map.h` | SeqModel, CallModel (functions with effects), AlgWalkModel (functions that insert into or erase from the Set or MultiSet being traversed) | functions that do so with a Vector or List |
| `math_utils/math_functions.h`, `binary_pow.cpp`, `statistics.cpp` | NumModel, NumCostModel (operation counts), IntTyModel (every integer type), StatModel (binary64), FloatSumModel (`sum` in float, double and 80-bit long double, `mean` of float) | `bool` and character arguments; `mean` of `long double`; excess precision |
| `math_utils/Fraction.h` | FracModel, OutModel (output) | stream flags other than the default |
| `math_utils/BigNum.h` | BigModel, BigProgModel (programs with variables) | bases other than 10, `operator*=(const BigNum&) const` (does not compile when used) |
| `math_utils/Matrix.h` | MatModel (any arithmetic), MatIntModel (machine integers), MatHeapModel (memory), OutModel (output) | overflow of the index arithmetic |
| `graph/SegmentTree.h` | SegModel (exact), SegCostModel (nodes visited), SegIntModel (int, long long), SegTyModel (every integer type), SegAnyModel (any value type whose operators return, doubles) | overflow of `4*size`; value types whose operators throw |
| `graph/BST.{h,cpp}` | BstModel, BstCostModel (operation counts) | - |
| `graph/Tree.{h,cpp}` | TreeModel, TreeCostModel (operation counts) | `id`, `val`, heights beyond 2^30 |
| `graph/Vertex`, `Edge` | GraphModel, VertMoveModel (swap, vector growth, setters and `operator<` of Vertex), EdgeContModel (edges in containers, setters, `operator<`, id counter) | overflow of the id counter of Vertex |
| `string_utils/Trie.{h,cpp}` | TrieModel, TrieCostModel (the same functions with operation counts) | arrays beyond 2^31 cells |
| `string_utils/StringCast.h` | CastModel, IntTextModel (every integer type), NumTextModel (double) | `float`, `long double`, wide characters and classes as target types |
| `json/Json.{h,cpp}`, `json_functions.cpp` | JsonModel (text), JsonHeapModel (objects), JsonCostModel (stack depth and copies of loadJSON), JsonDumpModel (stack depth and copies of dump, stack depth of copying and destruction), JsonFloatModel (the text of doubles in binary64; elsewhere abstract print/read/scale operations) | `std::pow` (any function with pow(10,0)=1), locales other than "C", objects with more than 2^31 elements |
| `random/*` | RandModel, Rand64, DistModel, NormModel | time-dependent default seeds; accuracy of `std::log`, `pow`, `exp` (abstract functions with stated hypotheses) |
| `containers/*` | ContModel, VecIOModel, VecAnyModel, NumTextModel (Vector<double>), IntTextModel (Vector of every integer type), RefModel, ListRefModel, MapRefModel (references and iterators kept into Vector, List, Map), DeqRefModel (references into Stack, Queue), WalkModel (loops over Set, MultiSet, Map with calls in the body), ListWalkModel (over List), MMWalkModel (over MultiMap), VecWalkModel (over Vector) | references and iterators into the other containers (loops over Set, MultiSet, Map and MultiMap apart), end iterators, copy assignment of a List or Map while references are kept, stream operators of Vector at element types other than the integer types, char, string, double and Vector of int, char, string (other containers have none) |
| `geometry/*` | GeoModel (exact reals and binary64), PointHeapModel (leaks), OutModel (output), NumTextModel (text of coordinates) | trigonometric functions (a unit vector of unspecified direction) |
| `utils/error.h` | outcome `Err` | the message text |

Not modelled anywhere: allocation failure, threads (the library has none), compile-time template
errors, stack exhaustion (shown as non-termination where recursion is unbounded; C116 treats it for loadJSON, C123 for dump, copying and destruction), timing (C106-C109, C113, C116, C121 and C123 count
operations, not seconds).

## 3. Findings policy

Where the natural claim is false for the code that exists, the property is stated as the exact
behaviour, a `..._refuted` theorem exhibits the failing input, and the positive theorem carries the
precise domain on which the claim holds. If a theorem covers only a part of its property it is
named `..._partial` and the manifest says what is missing.

## 4. Per property: what is modelled and how it is proved

| id | property | modelled | proof | status |
|---|---|---|---|---|
| C01 | base64Encode is RFC 4648 encoding | `base64Encode`: bit strings, substrings of 6, padding loop | induction over groups of three bytes against an arithmetic RFC 4648 spec | proved |
| C02 | explicit length of base64Encode | the explicit `length` argument with its size_t/int conversions | case analysis on the length on top of C01 | proved |
| C03 | base64 round trip | `base64Decode` after `base64Encode` | bit-string concatenation lemmas; decode = inverse that drops NUL bytes; witness for the refuted claim | proved |
| C04 | base64 decoding ignores padding amount and position | `base64Decode` on arbitrary text | the code table lookup is a function of the filtered text | proved |
| C05 | urlEncode output alphabet | `urlEncode` | byte case analysis (256 cases by computation), list induction | proved |
| C06 | URL round trip | `urlDecode` as index scan with bounds-checked reads | induction on the scan over encoded text | proved |
| C07 | memory safety of urlDecode | the same scan | scan predicate characterising reads behind the NUL | proved |
| C08 | kmpSearch finds the first occurrence | `genNext` and the search loop, bounds-checked table and text | border theory: loop invariant 'longest border', termination measure | proved |
| C09 | kmpSearch outside its domain | the same, empty pattern / negative converted start | computation of the first steps for arbitrary text | proved |
| C10 | editDistance is the Levenshtein distance | `editDistance`: the matrix with uninitialised cells | DP table = recursive distance = least number of edits (edit scripts as relation) | proved |
| C11 | editDistance is a metric | same | metric laws proved from the edit-script characterisation | proved |
| C12 | zip | `zip` on lists of containers, both loops | list induction, nth characterisation | proved |
| C13 | filterContainer and mapAll | `filterContainer`, `mapAll` | list induction | proved |
| C14 | gcd | `gcd` for int and int64 with checked division | Euclid invariant on truncated remainders | proved |
| C15 | lcm | `lcm` | from C14 and `Z.lcm` theory | proved |
| C16 | binaryPow | `binaryPow` loop with int64 range checks | loop invariant; exact condition on the squarings | proved |
| C17 | genericBinaryPow | `genericBinaryPow`, both dispatch variants | loop invariant over any semigroup | proved |
| C18 | factorial and permutation | `factorial`, `permutation` | product loop invariant, monotonicity for the range checks | proved |
| C19 | binomial | `binomial`: Pascal row with range checks | row invariant against the textbook recursion, unimodality bound | proved |
| C20 | statistics | statistics functions, exact rationals; int sums checked | field algebra in Q | proved |
| C21 | Fraction canonical form | `Fraction` constructors and operators as an operation language | invariant by induction on expressions | proved |
| C22 | Fraction arithmetic | same | refinement to Q | proved |
| C23 | Fraction comparison | comparisons | cross-multiplication lemmas | proved |
| C24 | Fraction mixed and compound operators that deviate | `n - f`, `n / f`, `/=` | direct computation against Q | proved |
| C25 | BigNum text round trip | string/int64 constructors and `toString` | digit-list value function, uniqueness of numerals | proved |
| C26 | BigNum addition/subtraction of magnitudes | `operator+`, `-` on magnitudes: carry/borrow loops | loop invariants on prefixes of the digit array | proved |
| C27 | BigNum operations on mixed signs | mixed signs, `++`, `--`, `+=`, `-=` | non-termination for every fuel; invariants of C26 | proved |
| C28 | BigNum multiplication | `operator*` (BigNum and int) | double-loop invariant (partial products) | proved |
| C29 | BigNum comparison | comparisons | order of numerals | proved |
| C30 | BigNum stale digits | copy/assignment that leave the old tail | symbolic execution with stale cells | proved |
| C31 | Matrix algebra | `+ - * += -= ==`, constructors | index algebra over lists of rows; ring laws by sums | proved |
| C32 | Matrix *= and pow | `*=`, `pow` with buffer ownership | symbolic execution of ownership; induction on the exponent | proved |
| C33 | Matrix::reduce | `reduce` over any exact field | elimination invariant (echelon prefix, row-space equality) | proved |
| C34 | SegmentTree memory safety of building and querying | init, updates and queries on arrays of length 4n | index bound by induction on the segment recursion; witness position for every other size | proved |
| C35 | SegmentTree fresh queries | fresh tree queries | induction on the segment recursion | proved |
| C36 | SegmentTree point values after every history | histories of updates and queries | history induction with an abstract array and pending-tag invariant | proved |
| C37 | SegmentTree range queries after updates | same | same invariant restricted to nodes containing the range | proved |
| C38 | BST insert/find | insert/find with splaying on a pointer heap | representation predicate, splay preserves in-order | proved |
| C39 | BST structure invariant | same | same | proved |
| C40 | BST erase | `erase`, all positions | representation with one damaged parent link | proved |
| C41 | BST pre/suf | `pre`, `suf` | representation predicate | proved |
| C42 | Tree ancestors | `setRoot`, `addNode`, ancestor tables | every finite tree is built; binary lifting invariant | proved |
| C43 | Tree::LCA | `LCA` with bounds-checked ancestor reads | exact condition from the bit pattern of the climb | proved |
| C44 | Tree::getDistance | `getDistance` | path arguments on depth-indexed parents | proved |
| C45 | Vertex/Edge bookkeeping | Vertex/Edge heaps with liveness | history induction | proved |
| C46 | Vertex ownership | same, plus copy/assignment/destructor | ownership invariant; symbolic execution for the double free | proved |
| C47 | Trie is a set of words | double array, tails, relocation, free slots; whole-history model | representation invariant between arrays and a set of words; set semantics by refinement | proved |
| C48 | Trie size | same | same | proved |
| C49 | Trie memory safety | same | no UB for in-alphabet histories; empty-trie computation for removals | proved |
| C50 | Trie iteration | iterator: stack, increment, begin | soundness invariant; completeness when first letters differ; refutations by computation/induction on fuel | proved |
| C51 | Trie alphabet is global | several tries and the static map | simulation of interleavings | proved |
| C52 | JSON string escape round trip | `jsonEscape` and the string scanner | byte case analysis, list induction | proved |
| C53 | JSON dump/load round trip | `dump` and the recursive-descent parser on indices | induction on values with a text-suffix invariant; converse by induction on the parser | proved |
| C54 | JSON keys with escapes | object keys | corollaries of C52/C53 plus computation | proved |
| C55 | JSON numbers | number scanner (sign, dot, exponent) | numeral lemmas, scanner invariants | proved |
| C56 | JSON malformed input | whole parser on arbitrary text | measure on the remaining text; position invariant for safety | proved |
| C57 | JSON value semantics | JSONObject storage: heap cells, copy/move/destroy, operators | simulation between heap programs and programs on plain trees | proved |
| C58 | nextInt(min,max) range | `nextInt(min,max)`, `nextBool` | modular arithmetic | proved |
| C59 | nextInt() | `nextInt()` | modular arithmetic | proved |
| C60 | nextDouble range | `nextDouble` in binary64 | Flocq rounding lemmas (monotonicity, exact endpoints) | proved |
| C61 | seeded replay | Random and NormalDistribution on any engine; mt19937_64 | induction on call lists; computation with the real engine | proved |
| C62 | discrete samplers are inverse CDF | discrete samplers over abstract arithmetic | loop invariant probability/threshold = pmf/cdf in Q; binary64 witnesses | proved |
| C63 | Vector and List refine sequences | Vector, List | history refinement to sequences | proved |
| C64 | Stack and Queue | Stack, Queue | history refinement | proved |
| C65 | Map and Set refine finite maps/sets | Map, Set as sorted sequences | history refinement to functions on key classes | proved |
| C66 | MultiSet and MultiMap | MultiSet, MultiMap | history refinement | proved |
| C67 | Vector stream format | `operator<<`, `operator>>` of Vector<int> on a stream model | grammar of accepted texts, loop analysis | proved |
| C68 | geometry: intersection | `getIntersection` over reals and binary64 | field algebra; Flocq lemmas for zero divisors | proved |
| C69 | geometry: point order and tolerant equality | Point comparisons in binary64 | order of finite doubles; case analysis for NaN/inf | proved |
| C70 | geometry: distances | `disToLine`, `disToSegment` over reals and binary64 | real algebra, minimality of the foot | proved |
| C71 | Exponential samples are finite | Gamma with shape 1 in binary64, any log | Flocq lemmas, bounds on products | proved |
| C72 | geometry: compound assignment and normalize | compound assignment with aliasing, `normalize` | list induction with the aliased cell; real algebra | proved |
| C73 | geometry: circle | Circle | real algebra; interval bound on pi | proved |
| C74 | urlDecode decodes the form encoding | `urlDecode` | byte case analysis, scan induction | proved |
| C75 | Trie with more than 27 codes | Trie relocation with code 28 | computation of a witness | proved |
| C76 | Trie and characters outside the alphabet | Trie with rejected characters | case analysis on first access; invariant of C47 | proved |
| C77 | JSON element assignment and access | element assignment/access paths | heap simulation of C57 and path algebra on trees | proved |
| C78 | JSON assignment between overlapping locations | overlapping assignments | same, with address-overlap lemmas | proved |
| C79 | JSON access through const | const access | same | proved |
| C80 | JSON initializer lists | initializer lists | same | proved |
| C81 | JSON append | `append` | same, both evaluation orders | proved |
| C82 | JSON texts with repeated or unordered members | loading objects with repeated/unordered members | induction on the member list, sorted-insert lemmas | proved |
| C83 | statistics in binary64 | mean/variance/stddev in binary64 (StatModel) | Flocq rounding-error lemmas for each loop; exactness of integer sums; vm_compute witnesses | proved |
| C84 | distribution objects own their generators | Distribution.h and derived classes as heap objects with generators (DistModel) | simulation between the heap model and value semantics, by induction over histories; invariant: owned addresses are distinct and alive | proved |
| C85 | seeds of distributions and random functions | as C84; random_functions.cpp | consequences of the simulation; vm_compute-free witnesses for every engine | proved |
| C86 | parameter checks of the distributions | init functions of the 12 constructors in binary64 | case analysis with Flocq: sign of rounded quotients, subnormal boundary | proved |
| C87 | Gamma, chi-squared and t samples in binary64 | GammaDistribution::next, StudentTDistribution::next in binary64; log, exp, pow are parameters | rounding bounds for the sum of logs, induction over the rejection loop; libm assumptions are hypotheses of the theorems | proved |
| C88 | Gamma samples have the Gamma distribution | the same code over exact reals (gamma_try, gamma_of_draws with real_ops) | iterated Riemann integrals of indicators (Coquelicot), substitution v = x^d and v = e^(1-x); Erlang by induction over the draws. Not proved: the convolution for non-integer shapes above 1 | proved |
| C89 | stringCast: what every text converts to | StringCast.h: construction, conversion operator and operator(); extraction of int, unsigned, bool, char, std::string from a stringstream in the C locale (double and other types not modelled) | independent relation `denotes` (white space, sign, digits, rest) shown equivalent to the model for every text; induction over histories for the reference | proved |
| C90 | Row reduction with machine arithmetic | the reduce of C33 with binary64 operations (Dops) and with int operations (Iops, overflow not marked) | the loop invariant of C33 without any algebraic law: only what is assigned and compared; refutations by computation, the exact solutions over the reals | proved |
| C91 | Matrix objects in memory: values and leaks | Matrix.h at memory level (MatHeapModel): pointer array and rows as heap blocks, new/delete, deepCopy, clear, operator=, operators, pow, reduce; access to a freed or foreign block, an index out of range and a double free are UB; [*] returns a copy of an object made by new | representation relation between heap and matrices with disjoint footprints; simulation of every operation, induction over histories; counting of live blocks | proved |
| C92 | How fair the integer, boolean and floating draws are | the draws of RandModel (C58, C59) as functions of one engine output | counting the preimages among the 2^64 outputs: `causes event n` lists them without repetition; residue classes, thresholds of the binary64 conversion | proved |
| C93 | Every JSON document with free layout loads as its value | the parser of JsonModel (C50-C55) | inductive grammar of documents (text/elements/members) written independently of the parser; mutual induction over the derivation, the parser leaves exactly the rest | proved |
| C94 | SegmentTree with int and long long values | SegIntModel: the functions of SegModel with a range check on every operation of ValueType | soundness: the machine run refines the exact run, operation by operation; no overflow: for each node the stored aggregates with everything pending on the path to the root stay below the bound, induction over calls | proved |
| C95 | gcd and lcm with any pair of integer types | IntTyModel: gcd and lcm with two argument types; integral promotion, usual arithmetic conversions, conversion back on %=, std::common_type; loops with fuel and `converges`/`diverges` | the loop on converted values is Euclid's as long as both operands survive the way to the common type and back; a family of fixed points for the endless loops | proved |
| C96 | factorial, permutation and binomial at every integer type | IntTyModel: factorial, permutation, binomial with the arithmetic of the argument type | invariants modulo 2^bits; for uint16_t the product is 0 from 18! on; the int counters of binomial reach their limit | proved |
| C97 | genericBinaryPow and sum at every integer type | IntTyModel: genericBinaryPow on integers, sum, sum with a mapping function | induction over the bits of the exponent, over the list | proved |
| C98 | geometry on integer coordinates in doubles | GeoModel with binary64 operations | integers below 2^53 are exact (GeoWholeProofs); the rounded steps add up by a relative-error calculus; least distance as in C70 | proved |
| C99 | geometry on arbitrary doubles: symmetry and error bounds | GeoModel with binary64 operations | case analysis on SpecFloat for the bitwise laws; relative-error calculus (GeoFloatProofs); witnesses computed in the model | proved |
| C100 | printed text of fractions, matrices and points | OutModel: operator<< of Fraction, Matrix and Point over any formatting of one number | loop invariants against `joined`; splitting a text at a separator that occurs in no entry is unique | proved |
| C101 | points: values and leaks of expressions | PointHeapModel: every `new Point` is an object on a heap that nothing frees | induction over expressions, for every choice of evaluation order | proved |
| C102 | Exactly which texts loadJSON accepts | JsonModel parser; JsonLooseSpec: the accepted grammar as mutual inductive relations | soundness by induction over the fuel, completeness by mutual induction over the grammar; texts may be extended by mutual induction | proved |
| C103 | Exactly which texts make loadJSON undefined | JsonModel parser; JsonLostSpec: the undefined texts as mutual inductive relations over the grammar of C102 | soundness by induction over the fuel, completeness by mutual induction, on top of C102 | proved |
| C104 | Matrices of machine integers | MatIntModel: operator*, +, -, +=, -= and reduce with every entry operation done in the promoted type (signed overflow undefined) and converted back | loop invariants; a search for the first overflowing step gives the undefined case; reduce is compared with MatModel's reduce over total operations (C90) | proved |
| C105 | Programs with big-number variables | BigProgModel: expressions and statements over the functions of BigModel, a list of variables, the printed texts | simulation: each variable denotes its number and, if solid, has zeros above its digits; induction over expressions and statements, with add and sub on operands whose cells above the digits are zero as far as they are read | proved |
| C106 | Total work of the splay tree | BstCostModel: the functions of BstModel returning also the number of rotations and search steps | erasing the counters gives BstModel; potential = product of subtree sizes (integers, no logarithms), one inequality per zig, zig-zig, zig-zag step; chains for the lower bounds | proved |
| C107 | Nodes visited by the segment tree | SegCostModel: the functions of SegModel returning also the number of nodes visited | erasing the counters gives SegModel; induction over the tree with separate bounds for prefix, suffix and inner ranges | proved |
| C108 | Divisions in gcd, multiplications in powers | NumCostModel: gcd, binaryPow, genericBinaryPow returning also the number of % and of * | erasing the counters gives NumModel; Lame's theorem by induction over the remainders; induction over the bits | proved |
| C109 | Work and memory of the rooted tree | TreeCostModel: the functions of TreeModel returning also the number of loop iterations | erasing the counters gives TreeModel; loop iterations equal the growth of the tables; table sizes from the representation invariant of C42 | proved |
| C110 | Normal samples have the normal distribution | NormModel: one round and the loop of the polar method over any arithmetic, instantiated with binary64 and with exact reals; RandModel.normal_next | sector probabilities by integrating over lines and the substitution u = R sin t; rounds by induction; code equality by induction over the rounds; binary64 bound by rounding error analysis (a non-zero coordinate is at least 2^-53) | proved |
| C111 | Accuracy of Poisson, negative binomial, geometric and binomial samples in double arithmetic | RandModel: poisson_next, negbin_init, negbin_next, binomial_init, binomial_next over binary64 (std::exp and std::pow are parameters, constrained by the accuracy hypotheses) | relative error of the running probability and absolute error of the running sum by induction over the loop, for any mass function with decreasing ratios; integer power by induction over its squarings; 1 - p by the spacing of doubles below 1 | proved |
| C112 | Calls of the user's function by mapAll and filterContainer | CallModel: the loops of Filter.h and Map.h with a function that has its own state, changes its argument and the world, and may throw | sequences of calls as an inductive relation, shown deterministic; the loops by induction over the container | proved |
| C113 | Comparisons made by kmpSearch | KmpCostModel: the functions of KmpModel returning also the number of character comparisons | erasing the counters gives KmpModel; amortised bound by induction over the loops with entries of the table pointing to the left; the worst case by induction on its length | proved |
| C114 | Segment trees of every integer type compute modulo 2^bits | SegmentTree with IntTyModel arithmetic (promotion, signed overflow, conversion on store) in every operation on ValueType | simulation between the machine tree and the exact tree of SegModel: every cell is the residue of the exact cell and the flags agree; minima stay residues because construction does not wrap; then C34, C36 and C37 for the exact tree | proved |
| C115 | Sign of gcd and exact domain of Fraction | NumModel.gcd, FracModel.mk and the operators, all with int range checks | remainders keep the sign of the dividend, so the result sits in the first or second variable according to the parity of the number of divisions: induction over the loop against an inductive Euclid relation; then cases on n or d being INT_MIN | proved |
| C116 | Stack depth and copying of loadJSON | JsonCostModel: the parser of JsonModel with a bound on nested calls of parse_next (beyond it: undefined) and a count of copied JSONObject values | simultaneous induction over the three mutually recursive functions: erasure to JsonModel, height, lower and upper bound of the copies (consumed length times '{' consumed); symbolic runs on the families of nested arrays and objects | proved |
| C117 | Edges in sets, multisets and lists | EdgeContModel: Edge objects with the int id counter, every construction explicit; Set, MultiSet and List through the tree and list functions of ContModel | invariant over all histories (distinct ids below the counter, sets strictly and multisets weakly sorted by weight); filters and splits for the ordered containers; induction on the number of lookups and on the list copied | proved |
| C118 | Memory held by a Trie | TrieModel (no new model): the lengths of the three arrays and the kept strings | bounds on lengths and on base values carried through every assignment: a search returns at most the length of check, so each character adds at most 54 cells; slots are counted by an invariant on pos, tail and tailList; exact state after each insert/remove cycle by the array lemmas of C47 | proved |
| C119 | What a SegmentTree query says after any history | SegModel (no new model); pieces are an inductive relation of the specification | the value of every node with all pending changes above it applied is an invariant of every history (C36/C37); a second induction over the query, against the halving relation; comparisons of pieces by induction over the history | proved |
| C120 | Vertices copied, swapped, sorted or kept in a growing vector | VertMoveModel: std::swap and growth of std::vector<Vertex> as sequences of the copies, assignments and destructions of GraphModel; setters, operator< | an invariant for a pair of holders of one edge (which of them are destroyed, is the edge freed) kept by every call; for careful programs, the invariant that out-lists are the leaving edges and edges live as long as their source | proved |
| C121 | How much work the operations of a Trie do | The operations of Trie.cpp as in TrieModel, each returning the number of accesses to base and check and the number of characters copied (TrieCostModel); growth of the arrays is left to C118, comparisons of characters are not counted. | Erasing the counters gives TrieModel back (C121_counts); bounds for any trie value by induction on the word, for insert combined with the memory bound of C118 through the length of the array after the call; the lower bound keeps the invariant that the cells below the last node of the chain are occupied, so that each search starts over all of them; the two refutations are families for every constant. | proved |
| C122 | SegmentTree<double> and other value types | SegAnyModel: the functions of SegModel over any type with <, +, * and the product by an int; doubles are those of Float | induction over the construction and the query against an inductive relation of bracketed expressions; extrema by the axioms of a strict weak order, which holds for doubles without NaN through the extended reals; sums by the relative error of one rounded addition (Flocq: small sums are exact), compounded over the nesting depth; agreement with SegModel by erasing the records one into the other; the refutations are computed | proved |
| C123 | Stack, size and copying of dump; stack of copying and destroying JSON values | JsonDumpModel: dump with its accumulator, the copies of tab, pad and of each member made on the way, and a bound on nested calls; the copy constructor and the destructor with the same bound (the text itself is JsonModel.dump) | induction over the value with the loops over members and elements named; bounds by carrying the length of the text through the loops; exact lengths and lower bounds for the nested families by induction on n | proved |
| C124 | Printing and reading back vectors of any element type | VecAnyModel: both stream operators of Vector over an arbitrary reader and printer of elements, instantiated at int, char, string and nested vectors by recursion over the type; streams, sentry and unget as in VecIOModel | induction over the element type, inside it over the elements: printed text is read back if plain; whatever is read from a good stream is plain, so the condition is exact; for strings the word read contains the separator | proved |
| C125 | Doubles in JSON documents: what is printed, what is read, what survives | JsonFloatModel: std::to_string(double) and stringCast<double> for binary64 (exact integer arithmetic, six decimals, ties to even; nearest double by SFdiv, overflow to the greatest double), put into the parser and printer of JsonModel; std::pow is any function with pow(10,0)=1 | Flocq: the digits are ZnearestE of the millionfold, reading is rnd of the quotient; below 2^33 half an ulp is less than half of 10^-6, so the digits come back, from 2^33 on the spacing exceeds 10^-6 and the double comes back; documents by mapping over the value and C53 | proved |
| C126 | Doubles on streams: Vector<double>, Point, stringCast<double> | NumTextModel: formatting of a double by a stream with default flags (six significant digits found by exact integer arithmetic, zeros at the end removed, exponent form) and num_get/strtod for doubles on the streams of VecIOModel (sign, digits, point, exponent, eofbit, failbit, overflow), put into the operators of VecAnyModel, the Point output of OutModel and stringCast | Flocq: the digits are rounding to radix 10 with precision 6, reading is rnd of the quotient (SFdiv); from 2^-1000 on half an ulp is far below half a unit of the sixth digit, so rounding back recovers the digits; the scanner splits a text uniquely; vectors by induction over pairs of text and value; a failed stream keeps the last comma, so the loop never ends | proved |
| C127 | References and iterators kept into a Vector | RefModel: the functions of ContModel on a Vector with a capacity and, for each reference taken, the position of its element or none; the invalidation rules of std::vector; the growth policy is an arbitrary function (clear and assignment keep a buffer that is large enough) | whenever defined the run equals a run on positions; simulation between the policy without spare room and any other (fewer references, smaller capacity); without spare room the capacity is the greatest size so far, which makes the condition exact | proved |
| C128 | References and iterators kept into Lists | ListRefModel: the calls of ContModel run on lists of nodes (identity and value) of two Lists with a common supply of identities; a reference is an identity | refinement of a specification where a reference is a List and a position: each call permutes the nodes up to one new or some removed ones; the place after sort by induction over insertion sort (smaller ones plus equal ones before); merging sorted lists is sorting their concatenation | proved |
| C129 | References kept to the values of a Map | MapRefModel: the tree functions of ContModel on entries whose value carries the identity of its node; a reference is an identity | refinement of a specification where a reference is a key or nothing: lookups after insertion, erasure and assignment for a strict weak order, identities stay distinct and new ones are fresh | proved |
| C130 | Integers of every type as text: stringCast<T> and Vector<T> | IntTextModel: istream extraction of an integer type (num_get: digits bounded by the type, sign applied in the type; characters at 8 bits) in stringCast and in the Vector operators of VecAnyModel | extraction rewritten on the signed number with the accepted range; induction over the list of elements as for Vector<int>; the 8-bit types reduced to Vector<char> (C124); equal at int and unsigned to the models of C67 and C89 | proved |
| C131 | A loop over a Set, MultiSet or Map whose body inserts and erases | WalkModel: a tree whose nodes carry identities, run by the tree functions of ContModel; an iterator is an identity, using one whose node is gone is UB; the body is any function of the elements seen so far to calls and whether to go on | refinement to a position in the sorted list of contents: every call that does not remove the present element splits before and behind it; induction over the rounds for order, completeness, origin and length of the rest | proved |
| C132 | mapAll and filterContainer with a function that changes the Set or MultiSet | AlgWalkModel: the loops of mapAll and filterContainer (which reads the element again after the call) on the trees and iterators of WalkModel; the function is any function of the elements seen so far to calls and a result | simulation by the loop of C131, which fixes order, completeness and origin; the final contents by induction over the rounds; erasing the argument: induction up to the first element that does not pass | proved |
| C133 | A loop over a List whose body changes it | ListWalkModel: a list of nodes with identities, the calls of ContModel on it, the loop variable as a node; using a node that is gone is UB | calls on nodes equal calls on values; every call takes the node to the position C128 gives; so the loop is a position in the plain list; induction over the rounds for pushing bodies and for bodies that neither remove nor reorder | proved |
| C134 | References kept into a Stack or a Queue | DeqRefModel: two deques of nodes with identities, the calls of ContModel on Stack and Queue, a reference as an identity; using one whose node is gone is UB | simulation by plain sequences with positions (agreement also on undefined behaviour and errors); then induction over the program for what becomes of one position | proved |
| C135 | A loop over a MultiMap whose body erases | MMWalkModel: the entries in key order as nodes with identities, erase, clear and writing to the present value, the loop variable as a node; using a node that is gone is UB | simulation by a plain list cut in two by the loop (agreement also on undefined behaviour); induction over the rounds: each round filters both parts by the calls made | proved |
| C136 | Sums of float, double and long double; the mean of floats | FloatSumModel: the sum loops in binary32, binary64 and the 80-bit format, mean of floats with the conversion to double | Flocq: relative error of one addition, induction over the elements; whole numbers are in the format; 2^p + 1 rounds back to 2^p | proved |
| C137 | A loop over a Vector whose body changes it | VecWalkModel: the elements with the capacity of the buffer, the iterator of the loop and its end() as positions that a call may invalidate by the rules for std::vector; using or comparing an invalid one is UB | simulation by an index loop on a plain list; end() survives no call that changes the size; induction over the rounds | proved |

Every property listed is expressed and proved; none had to be dropped. Properties whose statement
says "exact arithmetic" (C20 whose rounding is C83, C33, C62, C68, C70, C72, C73) say nothing about rounding beyond
the binary64 clauses they contain; that is the one aspect of those functions the model leaves out.

## 5. Assumptions per theorem

As printed by `Print Assumptions` below each theorem.

**Closed under the global context (no axioms)** (560 theorems):

* `C01_base64Encode_is_rfc4648`
* `C02_base64Encode_length`, `C02_unpadded_length`
* `C03_base64_round_trip`, `C03_base64_round_trip_exact_iff`, `C03_round_trip_all_bytes_refuted`
* `C04_decode_ignores_padding`, `C04_decode_any_length`, `C04_decode_foreign_as_slash`
* `C05_urlEncode_is_percent_encoding`
* `C06_url_round_trip`
* `C07_urlDecode_safe_iff`, `C07_urlDecode_safe_refuted`
* `C08_kmpSearch_first_occurrence`, `C08_first_occurrence_unique`
* `C09_kmpSearch_empty_pattern_ub`, `C09_kmpSearch_negative_start_ub`
* `C10_editDistance_least_edits`, `C100_fraction`, `C100_matrix`, `C100_matrix_no_columns`, `C100_matrix_text_equal`, `C100_matrix_text_equal_refuted`, `C100_point`, `C100_int_readable`, `C101_expression`, `C101_functions`, `C101_bounded_memory_refuted`, `C102_exact`, `C102_refused`, `C102_one_value`, `C102_appended`, `C102_appended_refuted`, `C102_json_refuted`, `C103_exact`, `C103_error`, `C103_reported_refuted`, `C104_sum`, `C104_difference`, `C104_product`, `C104_product_bound`, `C104_product_wraps`, `C104_product_any`, `C104_sizes`, `C104_associative`, `C104_distributive`, `C104_associative_refuted`, `C104_representable_refuted`, `C104_reduce`, `C104_reduce_refuted`, `C105_programs`, `C105_factorial`, `C105_fibonacci`, `C105_copy_refuted`, `C105_reassigned_refuted`, `C106_counting`, `C106_amortized`, `C106_amortized_log`, `C106_one_insertion`, `C106_find_linear`, `C106_find_refuted`, `C107_counting`, `C107_calls`, `C107_query`, `C107_total`, `C107_sharp`, `C108_counting`, `C108_gcd`, `C108_gcd_bound`, `C108_gcd_reached`, `C108_binaryPow`, `C108_generic`, `C108_superfluous`, `C109_counting`, `C109_getAncestor`, `C109_build`, `C109_addNode`, `C109_LCA`, `C109_bound`
* `C11_editDistance_metric`, `C110_same_code`, `C112_map`, `C112_filter`, `C112_pure`, `C113_same_result`, `C113_linear`, `C113_tight`, `C114_modular`, `C114_points`, `C114_sums`, `C114_defined`, `C114_unsigned_short_refuted`, `C114_extrema_refuted`, `C115_gcd_sign`, `C115_euclid`, `C115_fraction`, `C115_operators`, `C115_representable_refuted`, `C116_enough`, `C116_more`, `C116_loaded`, `C116_arrays_move`, `C116_depth`, `C116_any_stack_refuted`, `C116_quadratic`, `C116_linear_refuted`, `C117_identity`, `C117_set`, `C117_multiset`, `C117_sort`, `C117_list`, `C117_outcome`, `C117_lookups`, `C117_copies`, `C117_all_kept_refuted`, `C118_never_shrinks`, `C118_linear`, `C118_default`, `C118_removed_words_stay`, `C118_little_space_refuted`, `C119_pieces`, `C119_exact`, `C119_right_when`, `C119_never_over`, `C119_sum_right_iff`
* `C12_zip`, `C120_shared`, `C120_doomed`, `C120_careful`, `C120_swap`, `C120_swap_fatal`, `C120_grow`, `C120_grow_fatal`, `C120_setters`, `C121_counts`, `C121_contain`, `C121_remove`, `C121_insert`, `C121_quadratic`, `C121_insert_linear_refuted`, `C121_copies_refuted`, `C122_any`, `C122_order`, `C122_integers`, `C122_nan_refuted`, `C122_left_to_right_refuted`, `C122_additions_refuted`, `C123_dump`, `C123_copy`, `C123_destroy`, `C123_any_stack_refuted`, `C123_size`, `C123_objects`, `C123_linear_refuted`, `C123_aligned`, `C124_print`, `C124_round_trip`, `C124_exact`, `C124_chars`, `C124_strings`, `C124_words`, `C124_ints`, `C124_safe`, `C124_always_refuted`, `C125_nonfinite`, `C126_cast_blank`, `C126_cast_other`, `C126_json`, `C127_meaning`, `C127_library`, `C127_worst`, `C127_defined`, `C127_exact`, `C127_alias`, `C127_survives_refuted`, `C127_portable_refuted`, `C128_follows`, `C128_sorted`, `C128_kept`, `C128_index_refuted`, `C129_follows`, `C129_kept`, `C129_again_refuted`
* `C13_filterContainer`, `C13_mapAll`, `C130_cast`, `C130_cast_round_trip`, `C130_print`, `C130_round_trip`, `C130_exact`, `C130_diverges`, `C130_byte_cast`, `C130_bytes`, `C130_int`, `C130_small_refuted`, `C130_negative_refuted`, `C131_follows`, `C131_next`, `C131_order`, `C131_sees`, `C131_only`, `C131_ends`, `C131_safe`, `C131_current_refuted`, `C131_again`, `C131_ends_refuted`, `C132_map`, `C132_filter`, `C132_ends`, `C132_plain`, `C132_erase_refuted`, `C132_length_refuted`, `C133_follows`, `C133_sees`, `C133_work`, `C133_front`, `C133_ends_refuted`, `C133_current_refuted`, `C133_reverse_refuted`, `C134_meaning`, `C134_stack`, `C134_queue`, `C134_grow`, `C134_copy`, `C134_write`, `C134_top_refuted`, `C134_empty_refuted`, `C135_follows`, `C135_ends`, `C135_safe`, `C135_order`, `C135_sees`, `C135_left`, `C135_current_refuted`, `C136_elements`, `C137_index`, `C137_only`, `C137_ends`, `C137_safe`, `C137_values`, `C137_map`, `C137_resize_refuted`, `C137_write_refuted`
* `C14_gcd`, `C14_gcd_magnitude`, `C14_gcd_zero`, `C14_gcd_overflow`
* `C15_lcm`, `C15_lcm_zero_zero`, `C15_lcm_representable_refuted`
* `C16_binaryPow`, `C16_binaryPow_negative`, `C16_binaryPow_representable_refuted`
* `C17_genericBinaryPow`, `C17_genericBinaryPow_from_int`
* `C18_factorial`, `C18_permutation`, `C18_permutation_invalid`, `C18_permutation_zero`, `C18_permutation_zero_refuted`
* `C19_binomial`, `C19_binomial_invalid`
* `C20_variance_int`, `C20_variance_dbl`, `C20_sample_variance`, `C20_sample_variance_int`, `C20_variance_int_overflow_refuted`
* `C21_fraction_canonical`, `C21_zero_denominator`, `C21_construction_total`
* `C22_fraction_arithmetic`, `C22_no_overflow_returns`, `C22_division_by_zero`
* `C23_fraction_equality`, `C23_fraction_order`, `C23_fraction_order_total`, `C23_comparison_overflow_refuted`
* `C24_int_minus_fraction`, `C24_int_div_fraction`, `C24_div_assign`, `C24_natural_claims_refuted`
* `C25_string_round_trip`, `C25_int64`, `C25_int64_min`, `C25_toString_injective`, `C25_zero_prints_empty_refuted`
* `C26_add_same_sign`, `C26_sub_nonnegative`, `C26_sub_different_sign`, `C26_add_at_capacity`, `C26_natural_expressions`
* `C27_add_mixed_signs`, `C27_sub_negatives`, `C27_increment`, `C27_decrement`, `C27_assign_mixed_signs`
* `C28_product`, `C28_exact_iff`, `C28_product_beyond_capacity`, `C28_product_int`
* `C29_comparison`, `C29_negative_zero`, `C29_negation`
* `C30_assignment_keeps_old_digits`, `C30_sum_adds_leftover_digits`, `C30_negation_then_longer_sum`, `C30_value_semantics_refuted`
* `C31_matrix_results`, `C31_matrix_algebra`, `C31_matrix_compare_build`, `C31_matrix_assign`, `C31_ragged_refuted`
* `C32_times_assign`, `C32_pow`, `C32_pow_refuted`
* `C33_reduce`, `C33_reduce_no_columns`
* `C34_safe_sizes`, `C34_unsafe_sizes`, `C34_empty`, `C34_all_sizes_refuted`
* `C35_fresh`
* `C36_points`, `C36_points_total`
* `C37_ranges`, `C37_stale_refuted`, `C37_negative_refuted`
* `C38_find`, `C38_present`
* `C39_structure`, `C39_last_at_root`
* `C40_erase_first`, `C40_erase_last`, `C40_erase_middle`, `C40_erase_then_insert_refuted`
* `C41_pre_suf`, `C41_pre_suf_root`, `C41_pre_refuted`
* `C42_tree_fields`, `C42_getAncestor`
* `C43_lca_exists`, `C43_lca`, `C43_lca_sound`, `C43_shallow`, `C43_full_depth`, `C43_lca_safe_refuted`
* `C44_distance`, `C44_distance_outcome`
* `C45_ids`, `C45_graph`, `C45_degree_sums`, `C45_listed_once`
* `C46_edge_lifetime`, `C46_copy`, `C46_assign`, `C46_self_assign`, `C46_dangling_in`
* `C47_set_semantics`, `C47_default_map`, `C47_answers`
* `C48_size`
* `C49_safety`, `C49_remove_from_empty`, `C49_remove_absent_refuted`
* `C50_iteration_sound`, `C50_default_inverse`, `C50_iteration_complete`, `C50_complete_refuted`, `C50_termination_refuted`, `C50_begin_refuted`
* `C51_same_map_independent`, `C51_other_map_refuted`
* `C52_escape_round_trip`, `C52_escape_in_context`, `C52_toString`
* `C53_round_trip`, `C53_round_trip_plain`, `C53_exact`, `C53_reload`
* `C54_key_stored_escaped`, `C54_key_raw`, `C54_exact`, `C54_any_key_refuted`
* `C55_integer`, `C55_fraction`, `C55_exponent_signed`, `C55_exponent_unsigned`, `C55_exponent_in_array`, `C55_exponent_refuted`
* `C56_terminates`, `C56_safe`, `C56_unterminated_string`, `C56_unterminated_array`
* `C57_value_semantics`, `C57_other_variables`, `C57_copy_independent`, `C57_original_independent`, `C57_move`, `C57_moved_from`, `C57_copy_assign`
* `C58_nextInt`, `C58_nextInt_every_value`, `C58_nextBool`
* `C59_nextInt_overflow`, `C59_nextInt_wrapping_uniform`
* `C60_below_max_refuted`, `C60_wide_interval_refuted`
* `C61_seeded_replay`, `C61_fresh_generator`, `C61_normal_spare`, `C61_normal_replay_refuted`
* `C62_negative_binomial`, `C62_negative_binomial_draws`, `C62_geometric_cdf`, `C62_geometric_small_p_overflow`, `C62_poisson`, `C62_binomial`, `C62_bernoulli`
* `C63_vector`, `C63_list`, `C63_merge`, `C63_comparisons`, `C63_fill`
* `C64_stack`, `C64_queue`, `C64_lifo`, `C64_fifo`, `C64_clear`, `C64_clear_any_size_refuted`
* `C65_map`, `C65_set`, `C65_index_is_a_read_refuted`
* `C66_multiset`, `C66_multimap_count`, `C66_multimap_erase`, `C66_multimap_order`, `C66_multimap_find`, `C66_find_all_refuted`
* `C67_print`, `C67_round_trip`, `C67_exact`, `C67_diverges`, `C67_safe`, `C67_malformed_is_reported_refuted`
* `C68_parallel_not_finite`, `C68_not_parallel_not_finite_refuted`
* `C69_equality_transitive_refuted`, `C69_equality_consistent_with_order_refuted`, `C69_nan_equals_everything`
* `C70_degenerate_nan`
* `C72_compound_assignment`, `C72_scale_by_own_element_refuted`, `C72_normalize_zero_refuted`
* `C74_urlDecode_form_decoding`, `C74_urlDecode_lenient`
* `C75_large_alphabet_refuted`
* `C76_first_foreign`, `C76_contain_foreign`, `C76_insert_foreign_refuted`, `C76_end_mark_refuted`
* `C77_set_then_get`, `C77_others_kept`, `C77_read_again`, `C77_read_creates`, `C77_read_retypes`, `C77_index_grows`, `C77_index_range`, `C77_read_keeps_refuted`
* `C78_self_copy`, `C78_self_copy_scalar`, `C78_from_element`, `C78_into_element`, `C78_self_move`, `C78_move_into_element`, `C78_clash`, `C78_self_copy_refuted`
* `C79_const_key`, `C79_const_keeps_refuted`, `C79_const_type`, `C79_const_index`
* `C80_entries`, `C80_odd`, `C80_empty`, `C80_key_refuted`, `C80_nullptr`
* `C81_append`, `C81_append_object`, `C81_append_order_refuted`
* `C82_members`, `C82_no_merging`
* `C83_variance_double_equal_refuted`, `C83_same_result_refuted`
* `C84_ownership`, `C84_no_leak`, `C84_independent`, `C84_shared_uniform_int`, `C84_shared_uniform`, `C84_outlives_generator_refuted`
* `C85_same_second`, `C85_two_distributions_differ_refuted`, `C85_rebind`, `C85_rebind_normal_refuted`, `C85_functions`
* `C87_student_order_refuted`
* `C89_result`, `C89_round_trip`, `C89_object`, `C89_keeps_text_refuted`, `C89_never_reports`
* `C90_echelon`, `C90_echelon_double`, `C90_int_refuted`
* `C91_values`, `C91_memory`, `C91_released`, `C91_product_refuted`
* `C92_nextInt`, `C92_nextInt_bias`, `C92_nextInt_max`, `C92_nextInt_fair`, `C92_nextBool`, `C92_nextInt_all`
* `C93_document`, `C93_one_value`, `C93_trailing_text`, `C93_only_documents_refuted`, `C93_unicode_escape_refuted`
* `C94_sound`, `C94_no_overflow`, `C94_points`, `C94_bound_refuted`, `C94_maximum_refuted`, `C94_pending_refuted`
* `C95_common_type`, `C95_gcd`, `C95_gcd_undefined`, `C95_gcd_same_width`, `C95_gcd_endless`, `C95_gcd_mixed_refuted`, `C95_lcm`, `C95_lcm_overflow`, `C95_lcm_signed`, `C95_lcm_zero`, `C95_lcm_unsigned_refuted`
* `C96_factorial`, `C96_permutation`, `C96_permutation_invalid`, `C96_permutation_zero`, `C96_permutation_unsigned_refuted`, `C96_binomial`, `C96_binomial_counter`, `C96_binomial_counter_refuted`
* `C97_power`, `C97_power_negative`, `C97_power_representable_refuted`, `C97_sum`, `C97_sum_map`
* `C99_commutative`, `C99_cross_antisymmetric`, `C99_length_refuted`

**Axioms: `ClassicalDedekindReals.sig_forall_dec`, `FunctionalExtensionality.functional_extensionality_dep`** (5 theorems):

* `C60_half_open_refuted`
* `C86_least_freedom_refuted`
* `C111_same_value`
* `C122_double_sum_simple`, `C125_text`

**Axioms: `ClassicalDedekindReals.sig_forall_dec`, `ClassicalDedekindReals.sig_not_dec`, `FunctionalExtensionality.functional_extensionality_dep`** (10 theorems):

* `C68_intersection`, `C68_intersection_symmetric`
* `C70_distance_to_line`, `C70_distance_to_segment`, `C70_distance_to_segment_band`, `C70_distance_to_segment_refuted`
* `C72_scale_by_own_element`, `C72_normalize`
* `C73_circle_points`
* `C88_mean_unique`

**Axioms: `ClassicalDedekindReals.sig_forall_dec`, `ClassicalDedekindReals.sig_not_dec`, `Classical_Prop.classic`, `FunctionalExtensionality.functional_extensionality_dep`** (97 theorems):

* `C60_nextDouble`, `C60_nextDouble_range`, `C60_nextDouble_max`
* `C62_poisson_underflow`, `C62_negative_binomial_returns_refuted`, `C62_geometric_draw_one_refuted`, `C62_bernoulli_certain`
* `C69_order_is_lexicographic`, `C69_order_total`, `C69_tolerant_equality`, `C69_equality_reflexive_symmetric`
* `C71_exponential_infinite`
* `C73_circle_area_perimeter`
* `C83_variance_int`, `C83_stddev_int`, `C83_variance_int_container`, `C83_mean_int`, `C83_mean_no_elements`, `C83_variance_double`, `C83_variance_double_accuracy`, `C83_variance_int_container_accuracy`, `C83_sample_variance_int`, `C83_sample_variance_double`
* `C86_checks`, `C86_documented`, `C86_zero_rate_refuted`, `C86_nan_refuted`, `C86_chi_getter`, `C86_lambda_getter`, `C86_lambda_getter_refuted`
* `C87_outcome`, `C87_infinite_shape_refuted`, `C87_integer_shape`, `C87_never_negative`, `C87_student_nan_refuted`, `C87_student_value`
* `C88_fractional_shape`, `C88_integer_shape`, `C88_exponential`, `C88_same_code`
* `C90_singular_refuted`, `C90_regular_refuted`
* `C92_nextDouble`, `C92_bernoulli`
* `C98_cross_exact`, `C98_dot_exact`, `C98_cross_exact_refuted`, `C98_equality`, `C98_line`, `C98_segment`, `C98_intersection`, `C98_parallel`
* `C99_cross_error`, `C99_length`, `C99_normalize`, `C99_line`, `C99_line_relative_refuted`
* `C110_law`, `C110_rounds`, `C110_bounded`, `C111_poisson`, `C111_poisson_returns`, `C111_negative_binomial`, `C111_negative_binomial_returns`, `C111_binomial`
* `C122_double_extrema`, `C122_double_sum`, `C125_read`, `C125_round_trip`, `C125_document`, `C125_settles`, `C125_exact`, `C125_large`, `C125_integers`, `C125_small`, `C125_survive_refuted`, `C125_exponent_refuted`, `C126_text`, `C126_alike`, `C126_read`, `C126_cast`, `C126_cast_back`, `C126_vector`, `C126_error`, `C126_exact`, `C126_settles`, `C126_settles_refuted`, `C126_survive_refuted`, `C126_nonfinite`, `C126_points`
* `C136_accurate`, `C136_whole`, `C136_ones_refuted`, `C136_mean`, `C136_mean_all`, `C136_mean_refuted`, `C136_order_refuted`

## 6. Mutation testing

`seeded/LOG.jsonl` records every attempt: one realistic bug is planted in a model definition (outside
`/verif`), everything is rebuilt, and the property theorems that fail are listed. 667 attempts so far; where a theorem survived although its claim had become false it was tightened and the entry says so.
