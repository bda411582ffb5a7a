{"id": "C01", "title": "base64Encode is RFC 4648 encoding", "statement": "For every byte string s, base64Encode(s) is exactly the RFC 4648 section 4 encoding of s: every 3 input bytes give the 4 alphabet characters of their 24-bit value, a final group of 1 or 2 bytes gives 2 or 3 characters, and the text is filled with '=' to a multiple of 4.", "quantifier": "all byte strings of every length (including NUL and bytes >= 0x80)", "why_tests_cant": "There are infinitely many strings; every residue of the length mod 3 and every byte value interacts with the bit packing, a table of examples covers finitely many.", "anchors": ["src/base64/base64_functions.cpp: base64Encode"]}
{"id": "C02", "title": "explicit length of base64Encode", "statement": "For every byte string s and every int length: base64Encode(s,length) is empty when length < -1 or when 0 <= length is smaller than the unpadded encoding; otherwise (length >= 0) it has exactly `length` characters, starts with the unpadded encoding of s and continues with '=' only; length = -1 is the default padding.", "quantifier": "all byte strings with fewer than 2^31 encoded characters and all int lengths", "why_tests_cant": "Two unbounded parameters and a three-way boundary; tests only sample it.", "anchors": ["src/base64/base64_functions.cpp: base64Encode"]}
{"id": "C03", "title": "base64 round trip", "statement": "For every byte string s, base64Decode(base64Encode(s)) is s with its NUL bytes removed; hence it equals s exactly when s contains no NUL byte. (The round trip for all byte strings, which a caller would expect, is false.)", "quantifier": "all byte strings", "why_tests_cant": "Universal over all inputs; the failing inputs (containing byte 0) are precisely those that C-string based tests never contain.", "anchors": ["src/base64/base64_functions.cpp: base64Encode, base64Decode"]}
{"id": "C04", "title": "base64 decoding ignores padding amount and position", "statement": "For every text t, base64Decode(t) depends only on the characters of t that are not '=': in particular decoding base64Encode(s,length) gives the same bytes as decoding base64Encode(s) for every admissible length; every character outside the alphabet is decoded like '/'.", "quantifier": "all texts, all byte strings, all admissible lengths", "why_tests_cant": "Ranges over arbitrary (also malformed) texts.", "anchors": ["src/base64/base64_functions.cpp: base64Decode"]}
{"id": "C05", "title": "urlEncode output alphabet", "statement": "For every byte string s, urlEncode(s) is the RFC 3986 percent-encoding: each unreserved byte (letter, digit, - _ . ~) stays itself and every other byte becomes %XY with two upper-case hex digits of its value; so the output only contains unreserved characters and '%'.", "quantifier": "all byte strings", "why_tests_cant": "All 256 byte values in all positions and all lengths.", "anchors": ["src/network/network_functions.cpp: urlEncode"]}
{"id": "C06", "title": "URL round trip", "statement": "For every byte string s, urlDecode(urlEncode(s)) terminates without undefined behaviour and equals s.", "quantifier": "all byte strings", "why_tests_cant": "Universal over inputs; needs agreement of two independently written loops.", "anchors": ["src/network/network_functions.cpp: urlEncode, urlDecode, hexToInt"]}
{"id": "C07", "title": "memory safety of urlDecode", "statement": "urlDecode(t) reads only inside t (including its terminating NUL) and is defined if and only if no escape introducer '%' met by the left-to-right scan is the last character of t (then it reads past the end) or has a byte >= 0x80 among the up to two characters read after it (then isdigit is called on a negative value). When it is defined the result has at most as many characters as t.", "quantifier": "all byte strings", "why_tests_cant": "Safety for every malformed input cannot be observed by tests (the bad read usually goes unnoticed).", "anchors": ["src/network/network_functions.cpp: urlDecode, hexToInt"]}
{"id": "C08", "title": "kmpSearch finds the first occurrence", "statement": "For every text, every non-empty pattern and every start (text, pattern and start below 2^31), kmpSearch terminates, reads and writes only inside its buffers, and returns the least index i >= start at which the pattern occurs in the text, or -1 if there is none.", "quantifier": "all texts, non-empty patterns, start offsets", "why_tests_cant": "The failure table interacts with every self-overlap of the pattern; correctness is a statement about all pattern/text pairs.", "anchors": ["src/algorithm/kmp.cpp: kmpSearch, kmpGenerateNext"]}
{"id": "C09", "title": "kmpSearch outside its domain", "statement": "kmpSearch writes outside its allocated table for every text and start when the pattern is empty, and reads outside the text when start converts to a negative int and text is not shorter.", "quantifier": "all texts, all starts", "why_tests_cant": "An out-of-bounds write into a zero-length allocation is not visible to a test.", "anchors": ["src/algorithm/kmp.cpp: kmpSearch, kmpGenerateNext"]}
{"id": "C10", "title": "editDistance is the Levenshtein distance", "statement": "For all strings a, b, editDistance(a,b) is the least number of single-character insertions, deletions and replacements that turn a into b: some sequence of that many edits exists and no shorter one does.", "quantifier": "all pairs of strings shorter than 2^31-1 characters", "why_tests_cant": "Minimality is a statement about all edit scripts.", "anchors": ["src/algorithm/edit_distance.cpp: editDistance"]}
{"id": "C11", "title": "editDistance is a metric", "statement": "For all strings: editDistance(a,b)=0 iff a=b; editDistance(a,b)=editDistance(b,a); editDistance(a,c) <= editDistance(a,b)+editDistance(b,c); and | |a|-|b| | <= editDistance(a,b) <= max(|a|,|b|).", "quantifier": "all triples of strings shorter than 2^31-1 characters", "why_tests_cant": "Universally quantified inequalities.", "anchors": ["src/algorithm/edit_distance.cpp: editDistance"]}
{"id": "C12", "title": "zip", "statement": "For every non-empty sequence of containers, zip returns a container of length n = the minimum length whose i-th element is, in order, the i-th elements of all arguments.", "quantifier": "all argument lists of containers of any lengths", "why_tests_cant": "Arbitrary number of arguments and lengths.", "anchors": ["src/include/algorithm/Zip.h: zip, zip_"]}
{"id": "C13", "title": "filterContainer and mapAll", "statement": "filterContainer(c,f) is the subsequence of c of exactly the elements satisfying f, in order; mapAll(c,f) applies f to each element in order keeping length.", "quantifier": "all containers and all predicates/functions", "why_tests_cant": "Universally quantified over inputs and functions.", "anchors": ["src/include/algorithm/Filter.h: filterContainer", "src/include/algorithm/Map.h: mapAll"]}
{"id": "C14", "title": "gcd", "statement": "For all integers a, b in range except the pairs (MIN,-1) and (-1,MIN), which are undefined behaviour, gcd(a,b) terminates, divides both arguments, and has the magnitude of the greatest common divisor; it is the non-negative gcd when both are non-negative; gcd(a,0)=a and gcd(0,b)=b.", "quantifier": "all pairs of integers of the type", "why_tests_cant": "Termination and maximality over all pairs.", "anchors": ["src/include/math_utils/math_functions.h: gcd"]}
{"id": "C15", "title": "lcm", "statement": "For all non-negative a, b, not both zero, whose product is representable, lcm(a,b) is the least common multiple; lcm(0,0) divides by zero; a representable least common multiple alone is not enough (the product overflows first).", "quantifier": "all pairs of non-negative integers", "why_tests_cant": "Universally quantified; minimality over all multiples.", "anchors": ["src/include/math_utils/math_functions.h: lcm"]}
{"id": "C16", "title": "binaryPow", "statement": "For every int64 base and int exp >= 0: if binaryPow returns, it returns base^exp exactly; it exits with an error for exp < 0; whether it overflows is decided exactly by its squarings. The natural claim `returns base^exp whenever base^exp is representable' is false: the loop squares base once more than necessary and overflows a signed integer (e.g. 3^39).", "quantifier": "all bases and exponents", "why_tests_cant": "Overflow in a discarded intermediate is invisible to tests.", "anchors": ["src/math_utils/binary_pow.cpp: binaryPow"]}
{"id": "C17", "title": "genericBinaryPow", "statement": "For every associative multiplication and every exp >= 1, genericBinaryPow(x,exp) is the exp-fold product x*...*x; for types constructible from int exp = 0 gives BaseType{1}; otherwise exp <= 0 exits with an error.", "quantifier": "all semigroups, all elements, all exponents", "why_tests_cant": "Quantifies over all types with an associative product.", "anchors": ["src/include/math_utils/math_functions.h: genericBinaryPow"]}
{"id": "C18", "title": "factorial and permutation", "statement": "factorial(n) = n! and permutation(n,r) = n(n-1)...(n-r+1) for all 0 <= n, 1 <= r <= n with representable result, with no overflow in any intermediate; invalid arguments exit with an error. permutation(n,0) returns n although the number of 0-permutations is 1.", "quantifier": "all n, r", "why_tests_cant": "Universally quantified; overflow freedom of intermediates.", "anchors": ["src/include/math_utils/math_functions.h: factorial, permutation"]}
{"id": "C19", "title": "binomial", "statement": "For all 0 <= r <= n (n an int), binomial(n,r) is the binomial coefficient, and no intermediate value overflows if the result is representable; every other argument pair exits with an error.", "quantifier": "all n, r of the integer type", "why_tests_cant": "Overflow freedom of every intermediate for every admissible pair.", "anchors": ["src/include/math_utils/math_functions.h: binomial"]}
{"id": "C20", "title": "statistics", "statement": "In exact arithmetic: variance of an int array computed as E[x^2]-E[x]^2 equals the mean squared deviation computed by the double version, is >= 0, and is 0 iff all elements are equal; sample_variance * (n-1) = variance * n; the int version overflows exactly when a square or a prefix sum leaves the int range. (Floating-point rounding is out of the model.)", "quantifier": "all arrays of all lengths >= 1 (>= 2 for sample variance)", "why_tests_cant": "Algebraic identity over all arrays.", "anchors": ["src/math_utils/statistics.cpp", "src/include/math_utils/math_functions.h: sum, mean, variance, sample_variance"]}
{"id": "C21", "title": "Fraction canonical form", "statement": "Every Fraction value produced by any sequence of constructors and operators has positive denominator coprime to its numerator; a zero denominator exits with an error.", "quantifier": "all histories of Fraction operations without int overflow", "why_tests_cant": "Invariant over unbounded histories.", "anchors": ["src/include/math_utils/Fraction.h: Fraction"]}
{"id": "C22", "title": "Fraction arithmetic", "statement": "+, -, *, / and +=, -=, *= of Fractions (and Fraction op int, int + Fraction, int * Fraction) give the exact rational result whenever no int overflow occurs; dividing by zero exits with an error.", "quantifier": "all pairs of fractions", "why_tests_cant": "Universally quantified algebra.", "anchors": ["src/include/math_utils/Fraction.h: operators"]}
{"id": "C23", "title": "Fraction comparison", "statement": "==, !=, <, <=, >, >= on Fractions agree with the order of the rationals; structural equality equals numeric equality.", "quantifier": "all pairs of canonical fractions without overflow in the cross products", "why_tests_cant": "Universally quantified.", "anchors": ["src/include/math_utils/Fraction.h: comparison operators"]}
{"id": "C24", "title": "Fraction mixed and compound operators that deviate", "statement": "For all n and f: `n - f' computes f - n and `n / f' computes f / n; `f /= g' divides the numerators and denominators with integer division (right when both divisions are exact, an error when the left denominator is the smaller, division by zero for g = 0).", "quantifier": "all ints and fractions", "why_tests_cant": "Existing tests only use a case where the wrong formula agrees.", "anchors": ["src/include/math_utils/Fraction.h: operator-(int,Fraction), operator/(int,Fraction), operator/="]}
{"id": "C25", "title": "BigNum text round trip", "statement": "For every decimal string without superfluous leading zeros that fits the capacity, constructing a BigNum and calling toString gives the string back, except that zero prints as the empty string; the int64 constructor represents every int64 except the minimum.", "quantifier": "all decimal strings, all int64", "why_tests_cant": "Unbounded digit strings.", "anchors": ["src/include/math_utils/BigNum.h: BigNum(string), BigNum(int64_t), toString"]}
{"id": "C26", "title": "BigNum addition/subtraction of magnitudes", "statement": "For canonical BigNums with zero tails within capacity: a+b is exact for equal signs, a-b is exact for two non-negative operands and for operands of different sign; results are canonical.", "quantifier": "all digit arrays and lengths", "why_tests_cant": "Carry/borrow chains of all lengths.", "anchors": ["src/include/math_utils/BigNum.h: add, sub, operator+, operator-"]}
{"id": "C27", "title": "BigNum operations on mixed signs", "statement": "a+b with different signs is exact when the negative operand's magnitude is at most the other's and recurses forever otherwise; a-b for two negative operands of different magnitude returns a wrong value. ++ is exact from -1 upwards and never returns for smaller numbers, -- is exact.", "quantifier": "all pairs of canonical BigNums with the given signs", "why_tests_cant": "Non-termination and wrongness for a whole region of inputs.", "anchors": ["src/include/math_utils/BigNum.h: operator+, operator-, sub, cmp"]}
{"id": "C28", "title": "BigNum multiplication", "statement": "For canonical BigNums within capacity the magnitude of a*b is the product of magnitudes; its sign is the sign of a whatever the sign of b (so a*b is exact iff b >= 0 or a = 0); the same for a*n and a*=n with a machine integer n.", "quantifier": "all pairs", "why_tests_cant": "Convolution and carry over all lengths.", "anchors": ["src/include/math_utils/BigNum.h: mul, operator*"]}
{"id": "C29", "title": "BigNum comparison", "statement": "On canonical BigNums ==, !=, <, <=, >, >= agree with the integers.", "quantifier": "all pairs of canonical BigNums", "why_tests_cant": "Universally quantified.", "anchors": ["src/include/math_utils/BigNum.h: cmp and comparison operators"]}
{"id": "C30", "title": "BigNum stale digits", "statement": "Assignment copies only the digits of the source, so a variable that held a longer number keeps its old high digits, and a later addition with a longer operand reads them: the sum of two variables is not determined by their printed values.", "quantifier": "all assignment histories", "why_tests_cant": "Depends on history of a variable, not on its current value.", "anchors": ["src/include/math_utils/BigNum.h: BigNum(const BigNum&), operator=, add, sub"]}
{"id": "C31", "title": "Matrix algebra", "statement": "Matrix +, -, * compute entrywise sum, difference and the matrix product; shape mismatch fails the assertion (no result); += and -= agree with + and -; == decides equality of shape and entries; copying and building from rectangular rows give the same entries (an empty or ragged row list is read out of bounds); over a commutative ring + is commutative/associative, * is associative and distributes, and the identity matrix is neutral.", "quantifier": "all shapes and entries", "why_tests_cant": "Universally quantified over dimensions.", "anchors": ["src/include/math_utils/Matrix.h: operator+, -, *, idMat, =="]}
{"id": "C32", "title": "Matrix *= and pow", "statement": "operator*= on operands of compatible shape always frees its storage twice (undefined behaviour); for square A, pow(A,0) recurses for ever, pow(A,n) returns A itself when n is a power of two and is undefined behaviour for every other positive n, so it does not compute A^n.", "quantifier": "all matrices and exponents", "why_tests_cant": "Double free/undefined behaviour needs a memory model; every n.", "anchors": ["src/include/math_utils/Matrix.h: operator*=, clear, operator=, pow"]}
{"id": "C33", "title": "Matrix::reduce", "statement": "Over exact field arithmetic reduce() returns a matrix in row echelon form with leading ones whose rows span the same space (same solutions of A x = 0) as the argument, for every shape with at least one column; a matrix with rows but no columns makes it read an uninitialised variable.", "quantifier": "all matrices over a field", "why_tests_cant": "All shapes, all ranks.", "anchors": ["src/include/math_utils/Matrix.h: reduce"]}
{"id": "C34", "title": "SegmentTree memory safety of building and querying", "statement": "For a non-empty vector whose size is 2^k-1, 2^k or 2^k+1, every sequence of queries and interval updates with 0 <= lv <= rv < size completes without out-of-bounds access; for every other size there is a position such that one addInterval on it followed by one query of it indexes past the internal vectors (first for size 6). Building from an empty vector never returns.", "quantifier": "all sizes, ranges", "why_tests_cant": "Index bound over all sizes; out-of-bounds access is silent.", "anchors": ["src/include/graph/SegmentTree.h: SegmentTree, init, update"]}
{"id": "C35", "title": "SegmentTree fresh queries", "statement": "On a tree built from v, queryMax/queryMin/querySum(lv,rv) return the max/min/sum of v[lv..rv] for every valid range.", "quantifier": "all vectors and ranges", "why_tests_cant": "All sizes and ranges.", "anchors": ["src/include/graph/SegmentTree.h: queryMax, queryMin, querySum, init"]}
{"id": "C36", "title": "SegmentTree point values after every history", "statement": "After any history of addInterval/mulInterval/queries with valid ranges that stays in bounds, queryMax/Min/Sum(i,i) returns the value that position i has after applying the updates in order (and for sizes 2^k-1, 2^k, 2^k+1 it always stays in bounds).", "quantifier": "all histories of updates and queries, all positions", "why_tests_cant": "Lazy flags composed over unbounded histories.", "anchors": ["src/include/graph/SegmentTree.h: update, addInterval, mulInterval"]}
{"id": "C37", "title": "SegmentTree range queries after updates", "statement": "queryX(lv,rv) is right after any history in which every update contains or misses the whole queried range, with non-negative multipliers in the case of max/min; otherwise it can return stale results (an update of a proper subrange is not reflected in wider queries) or swap max and min (negative multiplier).", "quantifier": "all histories", "why_tests_cant": "History dependent.", "anchors": ["src/include/graph/SegmentTree.h: addInterval, mulInterval, query*"]}
{"id": "C38", "title": "BST insert/find", "statement": "After any history of inserts of fresh nodes and erasures of the smallest node, find(k) terminates without dereferencing null and returns a present node with key k iff there is one; present are exactly the nodes created and not erased.", "quantifier": "all insertion sequences and keys", "why_tests_cant": "Splay rotations over all histories.", "anchors": ["src/graph/BST.cpp: insert, find, splay, rotate"]}
{"id": "C39", "title": "BST structure invariant", "statement": "After any such history the pointer structure is a binary tree with consistent parent pointers holding exactly the present nodes; its in-order sequence is the stable ordering by key (equal keys in insertion order), and the node inserted last is at the root.", "quantifier": "all insertion sequences", "why_tests_cant": "Heap-shape invariant over unbounded histories.", "anchors": ["src/graph/BST.cpp: insert, splay, rotate"]}
{"id": "C40", "title": "BST erase", "statement": "Erasing the in-order first node is correct; erasing the in-order last node of a tree with at least two nodes dereferences null, for every tree; erasing any other node gives the right in-order sequence and find results but leaves both subtrees of the new root with the erased node as parent, so that a following insert can be lost and the erased node found again.", "quantifier": "all trees reachable by inserts, all nodes", "why_tests_cant": "Universal failure of a region of states; stale pointers are silent.", "anchors": ["src/graph/BST.cpp: erase"]}
{"id": "C41", "title": "BST pre/suf", "statement": "pre(x)/suf(x) return the neighbour of x in the ordered sequence when x has the corresponding child, and are exact for the root (in particular right after inserting x); without that child they return null even if a neighbour exists.", "quantifier": "all reachable trees and nodes", "why_tests_cant": "Universally quantified.", "anchors": ["src/graph/BST.cpp: pre, suf"]}
{"id": "C42", "title": "Tree ancestors", "statement": "Every rooted tree can be built with setRoot and addNode on fresh nodes; parent, sons (in insertion order) and height are those of the tree; getAncestor(level) is the level-th parent for 0 <= level <= height and reads outside an ancestor table for every larger level.", "quantifier": "all trees, nodes, levels", "why_tests_cant": "Binary lifting over all shapes.", "anchors": ["src/graph/Tree.cpp: addNode, getAncestor"]}
{"id": "C43", "title": "Tree::LCA", "statement": "If LCA(x,y) returns, the result is the deepest common ancestor of x and y. With h the smaller depth and d the climb from there to that ancestor, LCA returns iff d = 0 or for every i <= log2 h, floor((d-1)/2^(i+1))*2^(i+1)+2^i <= h; otherwise it reads outside an ancestor vector. In particular it is safe for h <= 4 and for h = 2^k-1, and unsafe for two leaves at depth 5 below the root.", "quantifier": "all trees and pairs", "why_tests_cant": "All shapes; the out-of-bounds read is silent.", "anchors": ["src/graph/Tree.cpp: LCA"]}
{"id": "C44", "title": "Tree::getDistance", "statement": "getDistance(x,y) is the number of edges of a shortest path between x and y whenever LCA(x,y) is safe, and reads out of range exactly when LCA does.", "quantifier": "all trees and pairs", "why_tests_cant": "Minimality over all paths.", "anchors": ["src/graph/Tree.cpp: getDistance"]}
{"id": "C45", "title": "Vertex/Edge bookkeeping", "statement": "After every history of vertex creation, edge creation, destruction, copying and assignment, distinct vertex objects and distinct edge objects have distinct ids, so == is object identity. For histories that create vertices and edges and destroy vertices, each vertex still alive lists exactly its leaving and its entering edges, in creation order, each edge in exactly one out-list and one in-list; while no vertex is destroyed, the sum of in-degrees equals the sum of out-degrees equals the number of edges.", "quantifier": "all creation histories", "why_tests_cant": "Unbounded histories.", "anchors": ["src/graph/Vertex.cpp", "src/graph/Edge.cpp"]}
{"id": "C46", "title": "Vertex ownership", "statement": "Without copies or assignments no edge is freed twice and an edge object is alive exactly as long as its source vertex, so destroying every vertex frees every edge exactly once. Copying a vertex that has an out-edge (or assigning it to another vertex) and destroying both, in either order, frees an edge twice; assigning a vertex to itself loses all its edges (they are never freed); after a vertex is destroyed its successors keep pointers to the freed edges in their in-lists.", "quantifier": "all histories", "why_tests_cant": "Double free is history dependent and silent.", "anchors": ["src/graph/Vertex.cpp: ~Vertex, copy constructor"]}
{"id": "C47", "title": "Trie is a set of words", "statement": "For every character map with distinct codes 2..27 (and 1 for the end mark) - the default lower-case map is one - and every history of insert/remove/contain over its letters in which only present words are removed: all operations succeed, every contain(w) answers true iff w was inserted and not removed afterwards, also at the end of the history.", "quantifier": "all maps with up to 27 codes, all histories of operations, all words", "why_tests_cant": "Double-array relocation on collisions over unbounded histories.", "anchors": ["src/string_utils/Trie.cpp: insert, contain, remove, insert_, retrieve, remove_"]}
{"id": "C48", "title": "Trie size", "statement": "After every history that does not hit undefined behaviour, size() equals the number of distinct words whose last insertion was not followed by a removal.", "quantifier": "all histories", "why_tests_cant": "Unbounded histories.", "anchors": ["src/string_utils/Trie.cpp: insert, remove, size"]}
{"id": "C49", "title": "Trie memory safety", "statement": "For words over the map's letters every history terminates without error, with the answers of the set; it can be undefined only by removing an absent word, which may read outside `check`: on an empty trie remove(w) is undefined exactly for words starting with y or z.", "quantifier": "all histories and words", "why_tests_cant": "Out-of-bounds reads are silent.", "anchors": ["src/string_utils/Trie.cpp: remove_, retrieve, insert_, AutoArray"]}
{"id": "C50", "title": "Trie iteration", "statement": "Every string an iteration produces is a word currently in the trie and the iterator never reads out of bounds. If different inserted words differ in their first letter, iteration yields every word exactly once in increasing order and ends. In general neither holds (refuted): with ab, ac, b the word b is never visited; with aba, abb the iteration never ends; after inserting and removing aba and abb, begin() itself never returns.", "quantifier": "all tries", "why_tests_cant": "All shapes.", "anchors": ["src/string_utils/Trie.cpp: visit, iterator"]}
{"id": "C51", "title": "Trie alphabet is global", "statement": "Any number of tries constructed with the same character map and used in any interleaving behave as independent sets. Constructing a trie with a different map changes the answers of the existing ones (refuted independence): the static map of the one constructed last is used for all.", "quantifier": "all interleavings over any number of tries; a pair of different maps", "why_tests_cant": "Depends on construction order.", "anchors": ["src/include/string_utils/Trie.h: StringAdapter", "src/string_utils/Trie.cpp: Trie::Trie"]}
{"id": "C52", "title": "JSON string escape round trip", "statement": "For every byte string s, parsing the quoted jsonEscape(s) yields exactly s, and in any surrounding text the parser resumes just behind the closing quote. toString() of a string value returns its escaped form, which equals the string iff it contains no quote, backslash, backspace, form feed, line feed, carriage return or tab.", "quantifier": "all byte strings", "why_tests_cant": "All byte values in all positions.", "anchors": ["src/json/Json.cpp: jsonEscape, parse_string"]}
{"id": "C53", "title": "JSON dump/load round trip", "statement": "For every JSON value (nested to any depth, ints in int range, floats whose printed text reads back) whose keys are escaped forms of strings - in particular keys that need no escaping - loadJSON(v.dump(depth,tab)) equals v for every depth and whitespace tab; these are exactly the values that survive, and everything loadJSON returns is among them.", "quantifier": "all values of unbounded size and nesting", "why_tests_cant": "Structural recursion over unbounded values.", "anchors": ["src/json/Json.cpp: dump, parse_*", "src/json/json_functions.cpp"]}
{"id": "C54", "title": "JSON keys with escapes", "statement": "Keys are stored escaped by the parser and printed raw by dump: loading {\"<escape t>\":null} stores the key escape(t) rather than t; a one-key object survives load(dump) iff its key is the escaped form of some string; keys with a line break, quote or backslash come back changed, as an error, or run past the end of the text.", "quantifier": "all keys", "why_tests_cant": "Universally quantified.", "anchors": ["src/json/Json.cpp: parse_object, dump, toString"]}
{"id": "C55", "title": "JSON numbers", "statement": "Every integer literal ([-]digits) loads as that integer clamped to the int range; a literal with a dot, or with a signed exponent at the top level, loads as the float mantissa*10^exp; an exponent without sign loses its first digit (1e5 is the integer 1); inside an array every number with a signed exponent is rejected.", "quantifier": "all number literals", "why_tests_cant": "Unbounded literals.", "anchors": ["src/json/Json.cpp: parse_number"]}
{"id": "C56", "title": "JSON malformed input", "statement": "loadJSON terminates on every text: it returns a value, exits with an error, or reads behind the terminating NUL / overflows - the latter only if the text ends inside a string literal, ends with a number character, or contains an exponent beyond the int range. Every string literal opened at the start and never closed, and every array cut off after a number, does read out of bounds.", "quantifier": "all texts", "why_tests_cant": "All malformed inputs.", "anchors": ["src/json/Json.cpp: parse_*"]}
{"id": "C57", "title": "JSON value semantics", "statement": "Every program over JSONObject variables (construction, copy, move, initializer list, assignment, append, queries, scope end) behaves like the same program on plain trees: same answers, same exceptions, undefined behaviour exactly where the tree semantics says so; every object is released exactly once unless the semantics reports a leak (move of a value into its own element). Hence copies are deep: statements that do not name a variable never change what it answers, a copy answers like the original did, the original is not changed through the copy; a moved-from location is null; copy assignment between locations that do not overlap makes both answer alike.", "quantifier": "all values, keys, indices", "why_tests_cant": "Universally quantified aliasing.", "anchors": ["src/include/json/Json.h", "src/json/Json.cpp"]}
{"id": "C58", "title": "nextInt(min,max) range", "statement": "For every 64-bit engine output x and int bounds: nextInt(min,max) stops with an error if max <= min, is undefined (signed overflow) if max-min > INT_MAX, and otherwise returns a value v of [min,max) with x congruent to v-min modulo max-min; every value of the range is reached, by exactly that residue class of outputs. nextBool() is the parity of x.", "quantifier": "all generator outputs and bounds", "why_tests_cant": "Range claims hold for all generator states.", "anchors": ["src/random/Random.cpp: nextInt"]}
{"id": "C59", "title": "nextInt()", "statement": "nextInt() without arguments overflows a signed int for exactly the engine outputs x with x mod 2^32 >= 2^31, so the defined results are exactly the negative ints; with wrap-around arithmetic every int is the result for exactly one residue of x modulo 2^32.", "quantifier": "all generator outputs", "why_tests_cant": "Half of the outputs are undefined behaviour that usually goes unnoticed.", "anchors": ["src/random/Random.cpp: nextInt"]}
{"id": "C60", "title": "nextDouble range", "statement": "In binary64, for every engine output x, nextDouble() is rnd(x)/2^64, finite, in [0,1]; it is 1 exactly for the 1024 largest outputs (refuting the documented half-open interval) and 0 exactly for x = 0. For finite bounds up to 2^1022 in magnitude nextDouble(min,max) stops with an error if max < min and otherwise is finite, at least min and at most fl(fl(max-min)+min), both bounds being attained; it is at most max if max-min is exact, but can exceed max otherwise (refuted: min=-3, max=0.75*2^-51); when max-min overflows it is NaN or infinite. nextDouble(max) is in [0,max].", "quantifier": "all generator outputs", "why_tests_cant": "Probability 2^-54 event.", "anchors": ["src/random/Random.cpp: nextDouble"]}
{"id": "C61", "title": "seeded replay", "statement": "For every engine: two generators that are given the same seed return equal results and end in equal states for every later sequence of calls, whatever happened before. This fails for a NormalDistribution on a reseeded generator (refuted with the real mt19937_64): a spare value computed before setSeed is returned after it.", "quantifier": "all call sequences and seeds", "why_tests_cant": "All histories.", "anchors": ["src/random/Random.cpp"]}
{"id": "C62", "title": "discrete samplers are inverse CDF", "statement": "In exact arithmetic NegativeBinomial, Geometric, Poisson (for any value in the role of exp(-lambda)), Binomial and Bernoulli return the inverse CDF of the draw u: the least k with u < P(X <= k); NegativeBinomial/Poisson overflow the int counter exactly if there is no such k in the int range, e.g. for Geometric with p <= 2^-32 and u >= 1/2; every u < 1 has an inverse and u = 1 has none (p < 1). BinomialDistribution(n,p) is constructed for 0 <= n <= 33 only, its construction overflows for every n >= 34. In binary64 next() never returns a value for Poisson with exp(-lambda) rounded to 0 (any draw), NegativeBinomial(2000, 0.5) (any draw) and Geometric(0.5) with a draw of 1.0; Bernoulli(1.0) is false for exactly the 1024 largest outputs.", "quantifier": "all parameters and draws", "why_tests_cant": "Universally quantified over draws/parameters.", "anchors": ["src/random/NegativeBinomialDistribution.cpp", "src/random/PoissonDistribution.cpp", "src/random/BinomialDistribution.cpp"]}
{"id": "C63", "title": "Vector and List refine sequences", "statement": "Every history of Vector and List calls (with int indices, on containers that stay below 2^31 elements) behaves as on a mathematical sequence: get/[]/first/last/size/isEmpty/insert/erase/set/push/pop/pushFront/popFront/reverse return and do the textbook thing, sort is a stable sort; the program stops with an error exactly at the first call with an index out of range or on an empty container, and is never undefined. List::merge of two sorted lists is their stable sorted merge and empties the argument; ==,!=,<,>,<=,>= are equality and lexicographic order; Vector(n,x) is n copies of x and an error for negative n.", "quantifier": "all histories", "why_tests_cant": "Unbounded histories.", "anchors": ["src/include/containers/Vector.h", "src/include/containers/List.h"]}
{"id": "C64", "title": "Stack and Queue", "statement": "Every history of Stack/Queue calls on fewer than 2^31 elements behaves as LIFO/FIFO sequence: after a push and any balanced history top/pop see the pushed value; values dequeued followed by the final contents are the initial contents followed by the values enqueued; pop/top/dequeue on an empty container stop with an error; Queue::first()/last() on an empty queue are undefined behaviour and are the only undefined calls. clear() empties containers below 2^31 elements, is undefined from 2^31 to 2^32-1 elements, and (refuting 'clear always empties') does nothing at 2^32 elements.", "quantifier": "all histories", "why_tests_cant": "Unbounded histories.", "anchors": ["src/include/containers/Stack.h", "src/include/containers/Queue.h"]}
{"id": "C65", "title": "Map and Set refine finite maps/sets", "statement": "Every history of fewer than 2^31 calls on an initially empty Map/Set behaves as a finite map/set up to key equivalence: the value of a key is the one of the latest set, operator[] creates a default value, erase/clear remove, size is the number of classes of keys, iteration is in strictly increasing key order; only get of a missing key stops with an error. Reading with operator[] is not a pure read (refuted).", "quantifier": "all histories", "why_tests_cant": "Unbounded histories.", "anchors": ["src/include/containers/Map.h", "src/include/containers/Set.h"]}
{"id": "C66", "title": "MultiSet and MultiMap", "statement": "Every history of fewer than 2^31 calls on an initially empty MultiSet has exact counts; erase removes all equivalent copies and stops with an error if there is none. MultiMap iterates in key order with insertion order among equal keys, count is the number of entries of the key, erase removes exactly those, find returns the values of the key as a strictly increasing set, so (refuted) find need not return as many values as count says.", "quantifier": "all histories", "why_tests_cant": "Unbounded histories.", "anchors": ["src/include/containers/MultiSet.h", "src/include/containers/MultiMap.h"]}
{"id": "C67", "title": "Vector stream format", "statement": "operator<< of a Vector<int> prints the elements joined by \", \" in braces, and operator>> reads that text back to the same vector and stops right behind it, whatever follows. operator>> reads v exactly from the texts that denote v (white space, signs and leading zeros allowed); it never returns (endless growth) exactly on texts with an opening brace and a comma that is not preceded by an element or not followed by an int, e.g. {1,abc} or {1,}; on all other texts it stops with an error.", "quantifier": "all int vectors", "why_tests_cant": "Unbounded vectors.", "anchors": ["src/include/containers/Vector.h: operator<<, operator>>"]}
{"id": "C68", "title": "geometry: intersection", "statement": "In exact arithmetic getIntersection of two lines with non-parallel directions returns the one and only point lying on both lines, whichever line comes first. In binary64 arithmetic, whenever the computed cross product is zero (parallel lines, but also non-parallel lines with tiny directions) both result coordinates are infinite or NaN.", "quantifier": "all pairs of lines", "why_tests_cant": "Universally quantified.", "anchors": ["src/geometry/Line.cpp: getIntersection"]}
{"id": "C69", "title": "geometry: point order and tolerant equality", "statement": "On points with finite coordinates, < > <= >= are exactly the lexicographic order of the coordinates (a strict total order). The tolerant == holds iff every coordinate differs by at most 1e-6 (after rounding); it is reflexive and symmetric for all points including NaN and infinities, but it is not transitive, p < q and p == q can both hold, and a NaN coordinate compares equal to everything.", "quantifier": "all points", "why_tests_cant": "Universally quantified.", "anchors": ["src/include/geometry/Point.h"]}
{"id": "C70", "title": "geometry: distances", "statement": "In exact arithmetic disToLine (direction not zero) is the least distance from the point to points of the line. disToSegment is the least distance to points of the segment unless the foot of the perpendicular lies outside the segment by less than 1e-6/|v|; there it returns the strictly smaller distance to the whole line, with unbounded error for short segments. In binary64 a zero direction gives NaN (disToSegment: if point minus origin is finite).", "quantifier": "all points, lines, segments", "why_tests_cant": "Minimality over all points of the line.", "anchors": ["src/geometry/Line.cpp: disToLine, disToSegment"]}
{"id": "C71", "title": "Exponential samples are finite", "statement": "For every engine, every log function with log(0) = -inf that is finite and in [-1000,0] on (0,1], and every scale up to 2^1000, ExponentialDistribution::next() (Gamma with shape 1) returns +infinity for exactly the 1024 largest engine outputs and a finite non-negative number otherwise, contrary to the comment that 1 - nextDouble() is uniform on (0,1].", "quantifier": "all engine outputs and parameters", "why_tests_cant": "An event of probability 2^-54.", "anchors": ["src/random/GammaDistribution.cpp: next", "src/include/random/ExponentialDistribution.h"]}
{"id": "C72", "title": "geometry: compound assignment and normalize", "statement": "p += q, p -= q, p *= c and p /= c leave p equal to p + q, p - q, p * c and p / c for any element arithmetic, also for p += p and p -= p. When the factor is an element of p itself (p *= p[j]) the elements behind index j are multiplied by the square of p[j] instead. normalize() of a non-zero vector has length 1 and the same direction in exact arithmetic; of a zero vector it is NaN in every coordinate.", "quantifier": "all points, dimensions, factors and element arithmetics", "why_tests_cant": "Universally quantified; aliasing of the factor with an element is not tested.", "anchors": ["src/include/geometry/Point.h: operator+=, operator-=, operator*=, operator/=, normalize"]}
{"id": "C73", "title": "geometry: circle", "statement": "In exact arithmetic every point returned by Circle::getPoint is at distance |r| from the centre. getArea and getPerimeter of a circle with positive radius are strictly below pi r^2 and 2 pi r, by less than 3.2e-8 relative.", "quantifier": "all centres, radii and angles", "why_tests_cant": "Universally quantified over reals.", "anchors": ["src/include/geometry/Circle.h"]}
{"id": "C74", "title": "urlDecode decodes the form encoding", "statement": "On every text over letters, digits, the other allowed characters, '+' and complete escapes %XY with hexadecimal digits of either case, urlDecode replaces '+' by a blank, each escape by the byte it denotes, and leaves every other character unchanged. On every text it can read safely: the 'digits' G-Z and g-z count as 16..35, other 7-bit characters as 0, and an escape cut off after its first digit has second digit 0.", "quantifier": "all byte strings", "why_tests_cant": "All 65536 escapes in all contexts, of either case; malformed escapes.", "anchors": ["src/network/network_functions.cpp: urlDecode, hexToInt", "src/include/network/network_functions.h"]}
{"id": "C75", "title": "Trie with more than 27 codes", "statement": "A custom map that meets the documented requirements but uses code 28 loses inserted words (refuted set semantics): relocation only moves children with codes 1..27.", "quantifier": "exists a map and a history", "why_tests_cant": "Needs a collision with a child of code 28.", "anchors": ["src/string_utils/Trie.cpp: outArcs, insert_"]}
{"id": "C76", "title": "Trie and characters outside the alphabet", "statement": "A word whose first character is rejected by the map makes insert, contain and remove stop with an error on every trie. For a trie of valid words, contain of a word with a rejected character answers false or stops with an error. insert accepts a rejected character behind the first letter (a later valid insertion then stops the program), and a word containing the end mark \\001 makes the empty word appear.", "quantifier": "all tries, all words", "why_tests_cant": "Input checking depends on the whole content of the trie.", "anchors": ["src/string_utils/Trie.cpp: retrieve, insert_, private_::mapChar"]}
{"id": "C77", "title": "JSON element assignment and access", "statement": "After v[...]... = x the location answers like x, and every location that separates from it at a key or at an index (or is in another variable) answers as before. Reading is not passive: reading v[key] makes v an object that has the key, replacing anything that is not an object; reading v[i] grows an array to max(length, i+1) elements with null and replaces anything that is not an array. A negative index and INT_MAX are undefined behaviour.", "quantifier": "all programs before the access, all locations, keys, indices and values", "why_tests_cant": "Aliasing between locations and creation on read range over unbounded nested values.", "anchors": ["src/json/Json.cpp: operator[], setType", "src/include/json/Json.h: operator="]}
{"id": "C78", "title": "JSON assignment between overlapping locations", "statement": "l = l is undefined exactly if l holds a string, array or object, and otherwise changes nothing. l = l[...] and l = std::move(l[...]) are undefined. l[...] = l is undefined exactly if l[...] holds a string, array or object. l = std::move(l) leaves null. l[...] = std::move(l) leaves null and leaks memory. An assignment between v[key]... and v[index]... is undefined.", "quantifier": "all programs before the assignment, all locations, both evaluation orders", "why_tests_cant": "Use after free and leaks depend on aliasing; a test run may pass by luck.", "anchors": ["src/json/Json.cpp: operator=(const JSONObject &), operator=(JSONObject &&), clearData"]}
{"id": "C79", "title": "JSON access through const", "statement": "On an object, at(key) const answers like [key]; if the key is absent it creates it, so a const object changes. On other types it is undefined. at(i) const on an array answers like [i] for 0 <= i < length and throws otherwise, also for negative i; on other types it is undefined.", "quantifier": "all programs before the access, all keys and int indices", "why_tests_cant": "Hidden mutation behind const and union misuse do not show in single examples.", "anchors": ["src/json/Json.cpp: at(const std::string &) const, at(unsigned) const"]}
{"id": "C80", "title": "JSON initializer lists", "statement": "An initializer list of keys and values gives an object; key text k has the last value whose key escapes to k (a key that is not a string counts as the empty text), no other keys. A key containing a character that must be escaped is therefore not found under its own name. An odd number of elements is undefined; an empty list gives null; assigning nullptr is undefined.", "quantifier": "all lists of scalars (odd case: all lists)", "why_tests_cant": "Duplicate, odd and escaped keys combine without bound.", "anchors": ["src/json/Json.cpp: JSONObject(std::initializer_list<JSONObject>)", "src/include/json/Json.h: operator=(T)"]}
{"id": "C81", "title": "JSON append", "statement": "append makes the array one element longer (a value of another type first becomes an empty array); the new last element answers like the argument, the other elements as before. The same holds for appending an object that does not overlap with the array, for every evaluation order; for v[key].append(v) the result depends on the order the compiler chooses.", "quantifier": "all programs before, all locations and values, three evaluation orders", "why_tests_cant": "Unspecified evaluation order cannot be tested with one compiler.", "anchors": ["src/include/json/Json.h: append"]}
{"id": "C82", "title": "JSON texts with repeated or unordered members", "statement": "Loading an object text whose members come in any order and with repetitions gives an object whose keys are in increasing order, and every key has the value it is given last; members with different names are never merged.", "quantifier": "all member lists in the layout of dump", "why_tests_cant": "Unbounded member lists with arbitrary repetitions.", "anchors": ["src/json/Json.cpp: parse_object"]}
{"id": "C83", "title": "statistics in binary64", "statement": "In binary64, variance(const int* , n) of an array without signed overflow is finite, never negative, zero exactly if all entries are equal, and within 2^-50 times the mean square of the true mean squared deviation when the sum of squares is at most 2^53; with overflow it is undefined. stddev of such an array is finite and zero exactly if all entries are equal. The container version on ints is likewise never negative and zero exactly for equal entries. The mean of ints is the correctly rounded quotient and lies between the extremes; with size 0 it is NaN, with negative size zero. For n doubles of magnitude up to 2^490 mean, variance and sample variance (n >= 2) are finite, non-negative where they should be, and within explicit bounds of the true values: relative (n+4)*2^-52 plus four times the squared error of the computed mean, itself at most (n+1)*2^-52 of the mean magnitude; the same for ints with a centre error of 2^-53 relative. The sample variance of one element is NaN. The variance of doubles is never negative; but equal doubles can have a positive variance and a mean above every entry (refuted), and the array and container functions can disagree on the same ints (refuted).", "quantifier": "all arrays and containers", "why_tests_cant": "Cancellation and rounding depend on the data; a zero or negative variance shows up only for special inputs.", "anchors": ["src/math_utils/statistics.cpp", "src/include/math_utils/math_functions.h"]}
{"id": "C84", "title": "distribution objects own their generators", "statement": "Every history of constructing generators and distributions (on an own generator or on one of the user), calling next(), setRandomGenerator and ending lifetimes behaves as if an own generator were a value stored in the distribution: same results, errors and undefined calls; every generator is released exactly once and none is left when all objects are gone. A distribution on its own generator returns what it would return alone, whatever else the program does; a uniform distribution on a generator of the user stands for calls of that generator. A distribution whose user generator has ended its lifetime is undefined at next() (nothing keeps the generator alive, refuted).", "quantifier": "all histories over any number of generators and distributions, all engines and libm functions", "why_tests_cant": "Double deletes, leaks and dangling generators depend on the order of unbounded histories.", "anchors": ["src/include/random/Distribution.h", "src/random/*.cpp"]}
{"id": "C85", "title": "seeds of distributions and random functions", "statement": "Two distributions constructed with the same parameters within the same second return the same sequence (so distributions of one program are not independent, refuted). After setRandomGenerator to a newly seeded generator the results are those of a newly constructed distribution on that seed, except for NormalDistribution, which after an odd number of calls first returns the spare value of the old generator whatever the seed (refuted). randomInt, randomDouble and randomBool are the calls of a single generator seeded with the time of the first call.", "quantifier": "all histories, engines, times and parameters", "why_tests_cant": "Depends on wall-clock time and on the number of earlier calls.", "anchors": ["src/include/random/Distribution.h: setRandomGenerator", "src/random/random_functions.cpp"]}
{"id": "C86", "title": "parameter checks of the distributions", "statement": "For finite parameters each constructor stops with an error exactly outside the documented range, with two exceptions: ExponentialDistribution(0) is accepted and then returns only infinity or NaN, and ChiSquaredDistribution rejects the least positive double; StudentTDistribution accepts that double and every call of next() stops the program. No constructor rejects NaN. ChiSquaredDistribution::r() returns the parameter exactly for every r >= 2^-1021, ExponentialDistribution::lambda() need not (49), but is within a relative error of 2^-51 for rates in [2^-1000, 2^1000].", "quantifier": "all finite parameters (12 constructors)", "why_tests_cant": "Boundary behaviour of rounded quotients at single values.", "anchors": ["src/include/random/*Distribution.h", "src/random/*Distribution.cpp: init"]}
{"id": "C87", "title": "Gamma, chi-squared and t samples in binary64", "statement": "GammaDistribution::next() is undefined exactly for shapes >= 2^31, infinite or NaN (all accepted by the constructor); otherwise it uses floor(k) engine outputs plus three per round of the acceptance loop, no round exactly for integer k. With integer shape the result is +infinity exactly if one of the outputs is among the 1024 largest, otherwise a finite non-negative number; for every shape it is never NaN or negative (assuming log maps (0,1] to [-1000,0], log 0 = -inf, and pow maps [0,1] into itself for exponents >= 1). A sample of StudentTDistribution(r) is z*sqrt(r/c) for one normal draw z and one chi-squared draw c up to a relative error of 2^-51 (quotients in [2^-500, 2^500]). StudentTDistribution(2) can return NaN, and with a fixed seed its samples depend on the evaluation order the compiler chooses (refuted).", "quantifier": "all engines, states, shapes and scales", "why_tests_cant": "Events of probability 2^-54 and unspecified evaluation order.", "anchors": ["src/random/GammaDistribution.cpp: next", "src/random/StudentTDistribution.cpp: next"]}
{"id": "C88", "title": "Gamma samples have the Gamma distribution", "statement": "In exact arithmetic with independent uniform draws: for integer shape n and scale theta the result is at most x with probability 1 - e^(-x/theta) * sum over i < n of (x/theta)^i / i! (n = 1: ExponentialDistribution); for shape 0 < d < 1 a round of the acceptance-rejection loop returns a number of [a,b] with a probability that is the same positive multiple, for all 0 < a <= b, of the integral of x^(d-1) e^(-x) over [a,b]. The binary64 code performs the same computation.", "quantifier": "all shapes n, d, scales and intervals", "why_tests_cant": "A distribution is a property of the whole space of draws; sampling can only give statistical evidence.", "anchors": ["src/random/GammaDistribution.cpp: next", "src/include/random/ExponentialDistribution.h"]}
{"id": "C89", "title": "stringCast: what every text converts to", "statement": "Converting a text to int reads leading white space, an optional sign and the longest run of decimal digits, ignores the rest, clamps to the int range; unsigned takes the value modulo 2^32 (-1 gives 4294967295; out of range gives the maximum), bool is true exactly for a non-zero number (so \"true\" gives false), char the first non-blank character, std::string the first word. A text without a number gives 0, a blank text gives an uninitialised value (except for std::string), and no failure is ever reported. Every printed int is read back. The object converts the present text of the string it was made from, not the text at construction, and is unusable when that string is gone or was a temporary.", "quantifier": "all texts; int, unsigned, bool, char, std::string; all histories of strings and stringCast objects", "why_tests_cant": "The texts are unboundedly many, a dangling reference usually still appears to work, and an uninitialised result looks like a value.", "anchors": ["src/include/string_utils/StringCast.h: stringCast"]}
{"id": "C90", "title": "Row reduction with machine arithmetic", "statement": "Whatever the entry type and however its arithmetic rounds (doubles with infinities and NaN included), reduce of a matrix with at least one column ends with a matrix of the same size in row echelon form: leading ones in strictly increasing columns, zeros before and below them, zero rows last. The number of pivots is however not the rank: in binary64 the singular matrix of integers [[49,1],[49,1]] gets two pivots, the regular matrix [[3,1],[1,1.0/3]] one; with int entries [[2,1],[4,2]] is reduced to the identity.", "quantifier": "all matrices, all entry types whose 0 compares equal to 0", "why_tests_cant": "Rounding makes the result depend on every entry; sampling matrices of small integers shows the right rank almost always.", "anchors": ["src/include/math_utils/Matrix.h: reduce"]}
{"id": "C91", "title": "Matrix objects in memory: values and leaks", "statement": "Take any history over any number of Matrix variables: construction by size or from lists, copy, assignment (also to itself), end of lifetime, reading and writing entries through [][], ==, +, -, *, +=, -= (also with itself on the right), pow, reduce. Executed on pointer arrays and row blocks, it has the same outcome and returns the same results as if each variable simply held a matrix of its own: no variable ever shares, reads or writes another one's rows, nothing is freed twice or used after it was freed. Only *= with fitting sizes does: it always frees the left operand's rows twice. At the end the allocated blocks are exactly one pointer array and the rows of each variable in scope, plus 2 + rows for every * and pow executed, which nothing can free; without * and pow everything is released when the variables end.", "quantifier": "all histories of operations, all numbers of variables, all sizes and entry types", "why_tests_cant": "Aliasing, double frees and leaks are properties of whole histories of pointers; tests compare printed values and pass although every product leaks.", "anchors": ["src/include/math_utils/Matrix.h"]}
{"id": "C92", "title": "How fair the integer, boolean and floating draws are", "statement": "If every one of the 2^64 outputs of the engine is equally likely, nextInt(min, max) gives each value v of [min, max) for exactly floor(2^64/d) outputs, d = max-min, plus one more for the lowest 2^64 mod d values: two values never differ by more than one output in 2^64, and the draw is exactly fair if and only if d is a power of two. nextBool is exactly fair. nextInt() without arguments gives each negative int for 2^32 outputs and is undefined for the other half (with wrapping it would give every int 2^32 times). nextDouble() < c, and Bernoulli(p) being true, hold for c*2^64 (p*2^64) outputs up to at most 1024 too few and less than one too many.", "quantifier": "all intervals whose length fits an int, all values in them, all doubles c and p in [0,1], all 2^64 engine outputs", "why_tests_cant": "The bias is of the order 2^-33 and below; no number of samples a test can draw shows it, and the space of outputs cannot be enumerated.", "anchors": ["src/random/Random.cpp", "src/random/UniformIntDistribution.cpp", "src/random/BernoulliDistribution.cpp"]}
{"id": "C93", "title": "Every JSON document with free layout loads as its value", "statement": "Every text of the JSON grammar (null, true, false, numbers without exponent, strings with all escapes, arrays and objects with any nesting, and any blanks, tabs and line ends between tokens and around the document) loads as the value it stands for: integers clamped to int, \\uXXXX kept as written, for repeated keys the last one. A document stands for one value only. Whatever follows a complete document after a blank, comma or closing bracket is ignored, so also texts that are no documents load.", "quantifier": "all documents of the grammar, all layouts, all depths", "why_tests_cant": "The set of documents is infinite in depth and layout; tests load a handful of texts, mostly those printed by the library.", "anchors": ["src/json/json_functions.cpp", "src/json/Json.cpp"]}
{"id": "C94", "title": "SegmentTree with int and long long values", "statement": "For SegmentTree<int> and SegmentTree<long long>, where an overflowing operation is undefined: whatever a program of construction, addInterval, mulInterval and queries returns is the value of exact arithmetic. No operation overflows as long as size * B fits the type, where B starts as a bound of the absolute values (at least 1), grows by |x| with every addInterval and by the factor max(1,|m|) with every mulInterval; then all results (and crashes from C34) are those of exact arithmetic. The condition cannot be weakened by one. It does not suffice that the values fit: construction adds all elements up even if only maxima are queried, and pending factors overflow although every value stays 0.", "quantifier": "all trees, all histories of valid calls, all types -M-1..M", "why_tests_cant": "The overflow happens in internal sums and pending factors that no query shows; tests on small values never reach it.", "anchors": ["src/include/graph/SegmentTree.h"]}
{"id": "C95", "title": "gcd and lcm with any pair of integer types", "statement": "gcd(a, b) for arguments of any two integer types: if the types meet in a signed type (usual arithmetic conversions), or both values are non-negative, the call returns a greatest common divisor of a and b, except for minimum / -1 of that type, which is undefined. If a negative value meets an unsigned type of the same width, the result is the gcd of the values modulo 2^bits. If it meets a wider unsigned type, the call may never return (every negative int against every 2^e with 32 <= e < 64 as uint64_t) or return a number that divides neither. lcm(a, b) for non-negative values, not both 0, returns the least common multiple exactly if the product a*b fits the common type and the result fits the return type; otherwise it is undefined (signed common type, which includes uint16_t operands) or a wrong number (unsigned).", "quantifier": "all pairs of 8/16/32/64 bit signed and unsigned types, all values", "why_tests_cant": "The types are chosen by the caller; tests use int literals. The failing pairs are a small part of a 2^128 space, and one failure mode is an endless loop.", "anchors": ["src/include/math_utils/math_functions.h"]}
{"id": "C96", "title": "factorial, permutation and binomial at every integer type", "statement": "For every integer type: factorial(n), permutation(n, r) with 1 <= r <= n and (types of at least 32 bits) binomial(n, r) return the exact number whenever it fits the type. Otherwise int and int64_t are undefined and the other types return the number modulo 2^bits, with two exceptions: factorial of the largest value of an unsigned or narrow type never returns, and uint16_t permutations can overflow int (undefined). binomial uses int counters for every type: with 0 < r < n it is undefined as soon as r or n - r exceeds 2^31-1, even if the number fits (n choose 1 for uint64_t n > 2^31). permutation(n, 0) is n instead of 1 in every type.", "quantifier": "all integer types, all arguments", "why_tests_cant": "Quantifies over all argument types and values; wrap-around versus undefined behaviour cannot be told apart by running.", "anchors": ["src/include/math_utils/math_functions.h"]}
{"id": "C97", "title": "genericBinaryPow and sum at every integer type", "statement": "genericBinaryPow(base, exp) with an integer base and exp >= 0: for int and int64_t the call is defined exactly if exp <= 1, base = 0 or base^(2^(number of bits of exp-1)) fits, and then returns base^exp (so 2^17 as int is undefined although it fits); every other type except uint16_t returns base^exp modulo 2^bits; uint16_t can be undefined. sum over an array or container: modulo 2^bits, and for int and int64_t the exact sum if the sums of all prefixes fit, undefined otherwise. sum with a mapping function is the sum of the results in the function's result type, in order; a function that ends the program ends the sum.", "quantifier": "all integer types, bases, exponents below 2^64, all lists, all functions", "why_tests_cant": "The superfluous squaring leaves no trace in the result; tests with sanitizers would need the exact boundary for every base.", "anchors": ["src/include/math_utils/math_functions.h"]}
{"id": "C98", "title": "geometry on integer coordinates in doubles", "statement": "With integer coordinates held in doubles: cross is exact up to 2^26 and the dot product of n-dimensional points of size b as long as n*b*b <= 2^53; == is exact equality up to 2^52. Up to 2^24 (direction not zero) disToLine and disToSegment are within 3*2^-53 (relative) of the true least distance, without the tolerance band of the exact-arithmetic version; getIntersection of non-parallel lines is within 4*2^-53 of the true point per coordinate (relative to |A| + |p - A|), and its result is not finite exactly if the lines are parallel. Beyond 2^27 a cross of 0 no longer means parallel.", "quantifier": "all integer points, lines and segments within the stated ranges", "why_tests_cant": "Rounding over all inputs of the range; the bounds are proved for the IEEE operations.", "anchors": ["src/include/geometry/Point.h: operator*, cross, len, operator==", "src/geometry/Line.cpp: getIntersection, disToLine, disToSegment"]}
{"id": "C99", "title": "geometry on arbitrary doubles: symmetry and error bounds", "statement": "p + q and the dot product are bitwise commutative for all doubles including NaN and infinities; cross(w, v) is the exact negation of cross(v, w) up to the sign of zero. For finite coordinates without overflow cross has error at most 3*2^-53*(|v0 w1| + |v1 w0|) + 2^-1073. For coordinates 0 or between 2^-500 and 2^500 in magnitude, len() is within (n+3)*2^-53 and each coordinate after normalize() within (n+4)*2^-53 (relative) of the true value, and the normalised vector has length 1 within (n+4)*2^-53; at 2^600 and 2^-600 both fail (infinite or zero length). disToLine has error at most 2^-49*|P - A| + 2^-500, and no relative error bound: a point at distance at least 0.3 can be reported on the line.", "quantifier": "all points with coordinates in the stated ranges, all dimensions up to 2^20", "why_tests_cant": "Rounding over all inputs.", "anchors": ["src/include/geometry/Point.h: operator+, operator*, cross, len, normalize", "src/geometry/Line.cpp: disToLine"]}
{"id": "C100", "title": "printed text of fractions, matrices and points", "statement": "A Fraction prints as decimal numerator, slash, decimal denominator, and two fractions in lowest terms print alike exactly if they are the same rational. A Matrix with at least one column prints one line per row with entries joined by ', '; non-empty matrices print alike exactly if they are equal (for any entry format that can be read back, such as int). A Matrix with rows but no columns is undefined to print; matrices without rows print alike whatever their number of columns. A Point prints its coordinates in parentheses joined by ', ', and points print alike exactly if equal.", "quantifier": "all values; all formattings of entries", "why_tests_cant": "Injectivity quantifies over all pairs of values.", "anchors": ["src/include/math_utils/Fraction.h: operator<<", "src/include/math_utils/Matrix.h: toString, operator<<", "src/include/geometry/Point.h: operator<<"]}
{"id": "C101", "title": "points: values and leaks of expressions", "statement": "Every expression built from points with +, -, multiplication and division by a number has the coordinates that arithmetic on the coordinates gives, whatever the order in which operands are evaluated, changes no other point, and leaks exactly one heap-allocated point per operator. getIntersection, disToLine, disToSegment and Circle::getPoint return the same values as without the memory model and leak 3, 1, 3 and 1 points per call, so no bounded memory suffices for repeated calls.", "quantifier": "all expressions, dimensions, number types, evaluation orders and heaps", "why_tests_cant": "Leaks are invisible to functional tests; universally quantified over expressions.", "anchors": ["src/include/geometry/Point.h: operator+, operator-, operator*, operator/", "src/geometry/Line.cpp", "src/include/geometry/Circle.h: getPoint"]}
{"id": "C102", "title": "Exactly which texts loadJSON accepts", "statement": "loadJSON(s) returns a value exactly if a grammar, given explicitly, reads that value off the front of s; every other text stops with an error or is undefined behaviour, and no text stands for two values. The grammar is looser than JSON: white space includes form feed and vertical tab; keys may be any value (all that are not strings are the same empty key); a number is a digit or minus sign followed by any digits, dots and minus signs, ended by white space, comma, ], } or the end; behind e or E one character is skipped (only a minus sign counts), so [1e, 5] is [1, 5]; unknown escapes stand for a backslash. Behind a complete array, object, string, boolean or null any text is ignored; behind a number it is not.", "quantifier": "all texts, all values", "why_tests_cant": "The set of texts is infinite, and acceptance of wrong texts is not what tests look for.", "anchors": ["src/json/Json.cpp: parse_next, parse_object, parse_array, parse_string, parse_number, parse_bool, parse_null, loadJSON"]}
{"id": "C103", "title": "Exactly which texts make loadJSON undefined", "statement": "loadJSON(s) has undefined behaviour exactly for the texts of an explicit inductive description: reading meets a string that is never closed, a number that is the last thing in the text while an array or object is open, or an exponent outside the int range (after any prefix that was read successfully). A text that neither stands for a value nor is of this kind, and only such a text, stops with an error. So truncated input is not always reported: [12 is undefined while [12 followed by a blank is an error.", "quantifier": "all texts", "why_tests_cant": "Whether a read one character behind the end shows depends on the memory behind the string; the texts are infinitely many.", "anchors": ["src/json/Json.cpp: parse_next, parse_object, parse_array, parse_string, parse_number, loadJSON"]}
{"id": "C104", "title": "Matrices of machine integers", "statement": "For Matrix<T> with T any integer type of 8 to 64 bits: +, -, += and -= are defined exactly if every entry's exact result fits the type it is computed in (int for narrower types), and give the entries modulo 2^bits. With int or long a product is defined exactly if every single product and every partial sum in column order is representable, and is then exact; k*A*B <= max is enough for entries bounded by A and B. With the other types except unsigned short products are always defined, modulo 2^bits; products of unsigned short may overflow int. Associativity and distributivity hold among results that are defined, but one side may be defined and the other not, and a product whose exact value is representable may still be undefined. reduce is undefined or ends in row echelon form; with int and long its result is that with unbounded integers, with the others except unsigned short it is always defined.", "quantifier": "all integer entry types, all matrices of all sizes", "why_tests_cant": "Overflow at a particular entry and step of a sum shows in no output; the matrices and types are too many to enumerate.", "anchors": ["src/include/math_utils/Matrix.h: operator*, operator+, operator+=, operator-, operator-=, reduce"]}
{"id": "C105", "title": "Programs with big-number variables", "statement": "A program that declares BigNum<N> variables (from literals, expressions or other variables), assigns, uses + - * in expressions, +=, -=, *= n, ++ and -- and prints computes and prints exactly the natural numbers it denotes, provided every intermediate number is natural and below 10^(N-1) and, in sums and differences, a variable that was copy-constructed or has lost digits is at least as long as the other operand (products need no such condition). The usual loops for n! and Fibonacci numbers therefore print the right numbers whenever these fit. Without the condition it is false: BigNum y = x; y + b with a longer b is undefined, and x = 100; x = 1; x + 500 prints 601.", "quantifier": "all capacities up to 10^7, all programs of any length over any number of variables", "why_tests_cant": "The digits above the length of a variable depend on the whole history of the program; tests can only try some programs.", "anchors": ["src/include/math_utils/BigNum.h: constructors, operator=, operator+, operator-, operator*, +=, -=, *=, ++, --, toString"]}
{"id": "C106", "title": "Total work of the splay tree", "statement": "Over any history of m insertions of new nodes and erasures of the smallest node on a BST in which n nodes are created, rotations and search steps together number at most 8 m log2(n+1) (k steps satisfy 2^k <= (n+1)^(8m)). A single insertion may take 1+2n steps. The bound does not extend to find, which does not splay: after inserting 0, ..., n-1 every find(0) looks at all n nodes, so no constant C bounds insertions and finds by C per call times log n, not even on average.", "quantifier": "all histories of any length, all keys", "why_tests_cant": "An amortised bound is about all sequences of calls; timing a few sequences shows neither the bound nor the constant.", "anchors": ["src/graph/BST.cpp: splay, rotate, insert, pre, erase, find"]}
{"id": "C107", "title": "Nodes visited by the segment tree", "statement": "Building a SegmentTree over n elements visits 2n-1 nodes. Every query (sum, min, max) and every interval update visits at most max(ceil(log2 n)+1, 4 ceil(log2 n)-3) nodes, whatever calls came before; for every n = 2^d with d >= 2 the query of [1, n-2] right after building visits exactly that many.", "quantifier": "all sizes, all histories of calls with valid ranges", "why_tests_cant": "The bound is about all ranges of all sizes after all histories.", "anchors": ["src/include/graph/SegmentTree.h: build, query*, interval updates, pushDown"]}
{"id": "C108", "title": "Divisions in gcd, multiplications in powers", "statement": "If gcd(a, b) with b != 0 performs k remainder operations then |b| >= Fibonacci(k+1); hence at most 45 for int and 91 for long long, and both are reached. binaryPow (base not 1 or 2) performs one multiplication per binary digit of the exponent and one more per one digit; genericBinaryPow the same for the exponent minus one, and always one squaring more than necessary (x^2 takes two multiplications).", "quantifier": "all arguments of int and long long; all element types and operations of the generic power", "why_tests_cant": "The number of operations is visible in no result; the worst case lies at single pairs of arguments.", "anchors": ["src/include/math_utils/math_functions.h: gcd, genericBinaryPow", "src/math_utils/binary_pow.cpp: binaryPow"]}
{"id": "C109", "title": "Work and memory of the rooted tree", "statement": "getAncestor(level) takes one loop iteration per binary digit of level. Adding a node at depth d takes as many iterations as d has binary digits and stores as many pointers; building a tree with n nodes below the root takes and stores the sum over all nodes, at most n times the digits of n. LCA and getDistance take the digits of the difference of the two depths and, unless one node is above the other, the digits of the smaller depth; at most twice the digits of n.", "quantifier": "all trees built by setRoot and addNode, all pairs of nodes on which LCA is defined", "why_tests_cant": "The claim is about all tree shapes; loop iterations and table sizes show in no result.", "anchors": ["src/graph/Tree.cpp: getAncestor, addNode, LCA, getDistance"]}
{"id": "C110", "title": "Normal samples have the normal distribution", "statement": "In exact arithmetic with independent uniform draws, the pair of numbers produced by the rejection loop of NormalDistribution lies in any given sector (quadrant, angle at most alpha from the axis, distance at least rho from the origin) after at most n rounds with probability alpha/(2 pi) * e^(-rho^2/2) * (1 - (1 - pi/4)^n): given that the loop ends, direction and distance are independent, the direction uniform and the distance distributed as for two independent standard normal numbers. A round is accepted with probability pi/4. The binary64 code performs this loop on the engine outputs, returns first*stddev+mean and keeps the second number, which the next call uses without drawing. In binary64 every sample is finite and within 14 stddev + 2^-53 |mean| + 2^-1073 of the mean (log of [2^-106,1] assumed to lie in [-74,0]; parameters up to 2^1000).", "quantifier": "all sectors and radii, numbers of rounds, engines, parameters and histories of calls", "why_tests_cant": "A distribution is a property of infinitely many draws; statistical tests only reject gross errors, and the extreme samples are too rare to occur in tests.", "anchors": ["src/random/NormalDistribution.cpp: next", "src/random/Random.cpp: nextDouble"]}
{"id": "C111", "title": "Accuracy of Poisson, negative binomial, geometric and binomial samples in double arithmetic", "statement": "With the rounding errors of double arithmetic, the value k returned for a uniform draw v satisfies P(X < k) - eps <= v < P(X <= k) + eps for the exact distribution: eps = (6+5k)/2^53 for Poisson with mean in [2^-900, 599] if exp is accurate to 2^-51; eps = (2r+2+8k)/2^53 for the negative binomial (geometric: r = 1) with r and k up to 2^20 and p^r >= 2^-950; eps = 2^-45 for the binomial with every n the table admits (up to 33) and every p in [0,1] if pow is accurate to 2^-52. Hence a draw farther than eps from every step of the distribution function gets exactly the value of exact arithmetic. The Poisson and negative binomial loops end with a value at most K for every draw below P(X <= K) - eps.", "quantifier": "all parameters in the stated ranges, all draws", "why_tests_cant": "Errors accumulate with the length of the loop and depend on every parameter; sampling tests cannot resolve deviations of 2^-45.", "anchors": ["src/random/PoissonDistribution.cpp", "src/random/NegativeBinomialDistribution.cpp", "src/random/BinomialDistribution.cpp", "src/include/random/GeometricDistribution.h"]}
{"id": "C112", "title": "Calls of the user's function by mapAll and filterContainer", "statement": "For functions with side effects: mapAll and filterContainer call the function exactly once per element, in container order, each call seeing the effects of the earlier ones; changes the function makes to its argument stay in the container, and filterContainer returns the elements as they are after their call. If a call throws, the exception leaves at once: the elements visited so far keep their changes, those behind are untouched and the function is not called again. The function object is copied, so counters inside it do not reach the caller's object. For functions without effects the container is unchanged and the results are map and filter.", "quantifier": "all functions with any internal state, effects on the outside world, changes of the argument and exceptions; all containers", "why_tests_cant": "The order and number of calls matters only for functions with effects; tests use pure functions.", "anchors": ["src/include/algorithm/Filter.h: filterContainer", "src/include/algorithm/Map.h: mapAll"]}
{"id": "C113", "title": "Comparisons made by kmpSearch", "statement": "kmpSearch(text, pattern, start) makes at most max(0, 3|pattern| - 5) character comparisons for its table and at most max(0, 2(|text| - start) - 1) in the search; if it finds the pattern at r, at most 2(r - start) + |pattern| in the search. The text bound is reached at every length: n letters a searched for ab take 2n - 1 comparisons.", "quantifier": "all texts, non-empty patterns and starts that fit an int", "why_tests_cant": "Linear time is a statement about all lengths; a quadratic search returns the same results.", "anchors": ["src/algorithm/kmp.cpp: kmpSearch"]}
{"id": "C114", "title": "Segment trees of every integer type compute modulo 2^bits", "statement": "SegmentTree<T> for every signed and unsigned integer type T of 8 to 64 bits, with C++ promotion and conversion: whenever a program (construction, any sequence of range additions, range multiplications and queries, then a query) returns, querySum over any range, and every query of a single position, give the residue modulo 2^bits of what the same program gives in exact arithmetic; so single positions, and sums over ranges that every update contains or misses, are right modulo 2^bits whatever the factors. unsigned int and unsigned long trees of a size for which the vectors are long enough never compute anything undefined, nor do signed/unsigned char and short trees as long as size+1 values fit an int. The natural extensions are false: unsigned short trees can overflow (65535*65535 is computed in int), and minima/maxima are not preserved by wrap-around (queryMin can exceed queryMax).", "quantifier": "all integer types, all value lists, all sequences of calls, all ranges", "why_tests_cant": "Promotion and wrap-around interact with pending flags at inner nodes; whether every interleaving commutes with reduction modulo 2^bits concerns infinitely many histories.", "anchors": ["src/include/graph/SegmentTree.h:41-118", "src/include/graph/SegmentTree.h:120-211"]}
{"id": "C115", "title": "Sign of gcd and exact domain of Fraction", "statement": "gcd(a,b) with b != 0 (int and int64_t, other than the two pairs of C14) returns the greatest common divisor with the sign of a when Euclid's algorithm on |a|,|b| makes an even number of divisions and with the sign of b otherwise. Fraction(n,d), for every pair of ints: d = 0 is an error; it is undefined exactly when d = INT_MIN and n is odd, or n = INT_MIN and d is odd and negative, or n = INT_MIN, d is odd and positive and Euclid's algorithm on 2^31 and d makes an even number of divisions; otherwise it is n/d in lowest terms with positive denominator. So +, -, *, / on fractions are undefined exactly when a product or sum leaves the int range or the resulting pair is one of these. In particular a representable fraction in lowest terms may fail to be constructed: INT_MIN/5 is undefined, INT_MIN/3 is not.", "quantifier": "all pairs of ints (and of int64_t for gcd), all fractions", "why_tests_cant": "Whether a value near INT_MIN works depends on the parity of the number of steps of Euclid's algorithm; sampling cannot separate the good from the bad denominators.", "anchors": ["src/include/math_utils/math_functions.h:23-30", "src/include/math_utils/Fraction.h:19-30", "src/include/math_utils/Fraction.h:35-87"]}
{"id": "C116", "title": "Stack depth and copying of loadJSON", "statement": "loadJSON recurses once for every level of nesting of the text. A stack with room for one nested call more than the text has '[' and '{' always suffices, a larger stack never changes a result, and n arrays inside each other need exactly n nested calls: every text that starts with more '[' than there is room for overflows the stack, whatever follows, so on every finite stack some valid JSON text (of 2n+2 bytes when there is room for n calls) crashes. Array elements are moved into place, members of objects are deep-copied: a text without '{' loads without copying any value; in general the number of values copied is at least the sum over all members of all loaded objects of the size of the member, and at most the number of '{' times the length of the text plus one. It is not proportional to the length: n+1 objects inside each other, 5n+2 bytes, take n(n+1)/2 copies.", "quantifier": "all byte strings, all stack sizes", "why_tests_cant": "Tests use small documents; the stack limit and quadratic copying show only on deeply nested input, and the bounds speak about every text.", "anchors": ["src/json/Json.cpp:19-86", "src/json/Json.cpp:221-242", "src/json/Json.cpp:301-347", "src/json/Json.cpp:484-487"]}
{"id": "C117", "title": "Edges in sets, multisets and lists", "statement": "After every history of creating, copying, assigning and changing edges and of putting them into a Set, a MultiSet and a List: all edges alive have different ids, so an edge in a container is never == to a variable of the client, not even right after it was inserted. A Set of edges holds at most one edge per weight: insert does nothing when an edge of that weight is present, contains asks for the weight only, erase removes the edge of that weight; so a Set of different edges need not hold them all. A MultiSet keeps all edges, ordered by weight and then by time of insertion; count counts the edges of the weight, erase removes all of them and is an error when there is none. Sorting a List rearranges the objects themselves: same ids, stable. A copy of a container compares equal to the original only when both are empty. Every Set::contains uses up an id: k lookups are undefined exactly when the counter plus k exceeds INT_MAX; in general a call is undefined exactly when it names a variable that does not exist or constructs an edge when the counter is INT_MAX.", "quantifier": "all histories, all weights, any number of edges", "why_tests_cant": "The mismatch between <, == and copying shows only for particular combinations of weights and calls, and the exhaustion of ids only after 2^31 constructions.", "anchors": ["src/graph/Edge.cpp:7-34", "src/include/containers/Set.h:187-205", "src/include/containers/MultiSet.h:193-220", "src/include/containers/List.h:343-377"]}
{"id": "C118", "title": "Memory held by a Trie", "statement": "No operation ever gives memory back: the arrays of a Trie never get shorter. After any sequence of insert, remove and contain on a new Trie whose mapChar yields codes of at most 27 (as the default does), each of its two integer arrays has at most 27 + 54*(L + I) cells, where I is the number of insert calls and L the number of characters passed to them; it keeps at most I strings with at most L characters in total. In the other direction memory is not determined by the contents: inserting and removing the same word of n letters k times leaves an empty trie (size 0, no word contained) that still holds k strings of n characters, so the documented 'takes little space' fails, without any bound, for a trie used as a working set.", "quantifier": "all words, all sequences of operations, all character maps with codes up to 27, all k", "why_tests_cant": "A test can print the sizes after one workload; that growth is at most linear in the text inserted for every interleaving (including conflicts that move nodes), and that removal never frees, are statements about all histories.", "anchors": ["src/string_utils/Trie.cpp:108-290", "src/include/string_utils/Trie.h:15-43", "src/include/string_utils/Trie.h:47-56"]}
{"id": "C119", "title": "What a SegmentTree query says after any history", "statement": "Cut [0,n-1] in halves until each block lies inside or outside the queried range; the blocks inside are the pieces of the range, and they tile it. After any history of valid calls, queryMax/queryMin/querySum(lv,rv), if it returns, is exactly the greatest / the least / the sum of the values of the pieces, where the value of a piece is its right answer in the initial list, moved in order by exactly those updates whose range contains the whole piece (times m; plus d, or plus d per element for sums). An update that cuts through a piece leaves no trace in it, and earlier queries never matter. Hence a range query is right also when updates cut through the range, provided they cut through none of its pieces (with non-negative multipliers for max and min); if all updates add positive numbers, no query ever overstates, and a sum is right exactly when no update cuts through a piece.", "quantifier": "all non-empty lists, all histories of valid calls, all ranges, all three queries", "why_tests_cant": "A test can show one stale answer; which answers are stale, and by how much, for every history is a statement about all interleavings of pending updates.", "anchors": ["src/include/graph/SegmentTree.h:56-73", "src/include/graph/SegmentTree.h:75-118", "src/include/graph/SegmentTree.h:120-211"]}
{"id": "C120", "title": "Vertices copied, swapped, sorted or kept in a growing vector", "statement": "Vertex has no move operations, so the standard library moves it by copying. Whenever two living vertices list the same edge, every program that destroys both and assigns to neither is undefined, in whatever order and whatever happens in between; the same holds for destroying a vertex that lists an edge already freed. std::swap(u,v) exchanges values, validity and edge lists (not ids) and frees exactly the edges leaving u, which v then lists: destroying v later is undefined as soon as u had a leaving edge. When a std::vector<Vertex> grows, the elements in the new storage have the old values and lists, but every edge leaving an element has been freed, so destroying the vector later is undefined as soon as an element had a leaving edge; operator<, provided 'for sort', therefore cannot be used for sorting such vertices in place. Conversely, programs that copy, assign, swap and move only vertices without leaving edges (and add edges to the vertices at their final place) never fault, and each edge lives exactly as long as the vertex it leaves.", "quantifier": "all programs of vertex and edge creation, copy, assignment, swap, vector growth, setters and destruction", "why_tests_cant": "Freed memory usually still reads as before, so tests pass; that no order of destruction is safe is a statement about all continuations.", "anchors": ["src/graph/Vertex.cpp:26-72", "src/include/graph/Vertex.h:15-28"]}
{"id": "C121", "title": "How much work the operations of a Trie do", "statement": "For every trie, whatever it holds and however large it has become, contain(w) makes at most 3|w|+4 and remove(w) at most 3|w|+6 accesses to the integer arrays; besides copying w twice, each copies at most one kept string. That copy is not bounded by the word looked up: after a single insert of a long word, contain(\"ac\") copies all of it, for any length. After a history of I insert calls with L characters in total, insert(w) makes at most (|w|+30)*(54*(L+I+|w|+1)+39)+2466 accesses, including the search for free cells and the moving of nodes on a conflict. This product is not an artefact of the analysis: inserting a word of n letters and then another that differs from it at the end makes at least n*n/2 accesses, so no bound linear in the text inserted exists ('efficient in retrieving and deleting, but works bad in inserting', made precise).", "quantifier": "all words, all tries, all histories, all character maps with codes up to 27", "why_tests_cant": "A profile shows the time of one workload; bounds for every trie and every word, and a family that attains the product, are statements about all inputs.", "anchors": ["src/string_utils/Trie.cpp:64-77", "src/string_utils/Trie.cpp:108-290", "src/include/string_utils/Trie.h:15-56"]}
{"id": "C122", "title": "SegmentTree<double> and other value types", "statement": "Whatever ValueType is and whatever its operators do: on a non-empty tree that has only been queried, queryMax, queryMin and querySum over a valid range combine the elements of the range, each exactly once and from left to right, with at most ceil(log2 n) nested combinations, and earlier queries never change an answer. Hence queryMax and queryMin are right as soon as < is a strict weak order among the elements of the range: for doubles, whenever none of them is NaN, infinities included. For n <= 2^29 finite doubles whose magnitudes sum to at most 2^1022, querySum is finite and differs from the exact sum by at most ((1+2^-53)^ceil(log2 n) - 1), hence at most 2*ceil(log2 n)*2^-53, times the sum of the magnitudes: logarithmic instead of linear growth of the error. The naive expectations fail: with a NaN the maximum of two elements depends on their order; querySum is not the sum from left to right; after addInterval(x) and addInterval(y) an element e need not be (e+x)+y, because pending additions are first added to each other: 2^60 - 2^60 + 1 reads 0 instead of 1. Instantiated with integers the model is that of the other SegmentTree properties.", "quantifier": "all value types and operators, all non-empty lists, all ranges, all sequences of earlier queries", "why_tests_cant": "A test compares a few sums with a tolerance; a bound on the rounding error for all inputs of all lengths, and correctness for every ordering a user may supply, are statements about all values.", "anchors": ["src/include/graph/SegmentTree.h:26-73", "src/include/graph/SegmentTree.h:75-118", "src/include/graph/SegmentTree.h:120-211"]}
{"id": "C123", "title": "Stack, size and copying of dump; stack of copying and destroying JSON values", "statement": "dump(), copying and destroying a JSON value need room on the stack for exactly as many nested calls as the value is nested; with less they are undefined, so for every stack there is a value that cannot even be destroyed. With enough room the text of dump(depth,tab) is the documented one; it is the text without indentation plus at most 2*nodes-1 indentations of depth+height tabs, and dump copies at most 2*height times its length, plus nodes*(depth+height)*|tab|, characters. Neither is linear: n objects around an empty one give a text of exactly 2n^2+11n+4 characters (9n+4 without indentation) and at least n^3 characters copied; nested arrays, which are not indented at all, still cost a quadratic number. The parameter tab works only for strings of two characters: the closing brace of an inner object stands below the line that opened it exactly when tab has length 2 (or is empty).", "quantifier": "all values of any size and nesting, all depths, all tabs, all stack sizes", "why_tests_cant": "Tests dump small documents with the default tab; the stack limit, the growth for deep nesting and the misplaced braces for other tabs are statements about all values.", "anchors": ["src/json/Json.cpp:258-299", "src/json/Json.cpp:301-347", "src/json/Json.cpp:429-469", "src/include/json/Json.h:519"]}
{"id": "C124", "title": "Printing and reading back vectors of any element type", "statement": "operator<< prints a Vector of ints, chars, strings or vectors of these, nested to any depth, as its elements separated by a comma and a blank, in braces, at every level. If there are no strings inside, operator>> gives the printed vector back, and leaves the stream right behind it whatever follows, exactly when no char in it is white space and no vector of chars in it starts with '}'; in particular nested vectors of ints are always read back. A vector of strings is read back only if it is empty, whatever its strings are and whatever follows: the separators become part of the words, and for ordinary words the program stops with an error message. Reading is never undefined.", "quantifier": "all element types built from int, char, string and Vector, all vectors, all texts before and after, any contents of the uninitialised variables", "why_tests_cant": "A test reads back some vectors; for which element types and which contents printing and reading are inverse, at every nesting depth, is a statement about all values.", "anchors": ["src/include/containers/Vector.h:389-401", "src/include/containers/Vector.h:403-430"]}
{"id": "C125", "title": "Doubles in JSON documents: what is printed, what is read, what survives", "statement": "dump() prints a finite double as sign, digits, point and six digits that denote its nearest multiple of 10^-6 (ties to even), and prints the sign of negative zero. loadJSON makes of a number written with a point the nearest double, or the greatest double if that overflows. So dumping and loading a document changes nothing except that every double becomes the one nearest to its six decimals, at most 10^-6 away; doing it again changes nothing any more. A document survives exactly if each of its doubles is the nearest one to some multiple of 10^-6; among these are all integers and all doubles of magnitude 2^33 or more. Magnitudes up to 5*10^-7 become zero. What dump prints for infinities and NaN is refused by loadJSON. The expectations that every double survives, and that a number with an exponent is read as the nearest double even if std::pow rounds correctly, are false (1e-7; 3e-1).", "quantifier": "all doubles, all documents of any size and nesting whose keys are escaped forms, all digit strings of any length, both signs of NaN, any std::pow with pow(10,0)=1", "why_tests_cant": "A test compares a few doubles; that rounding twice (to six decimals and back to binary) is idempotent, and exactly which doubles survive, is a statement about 2^64 values and all documents.", "anchors": ["src/json/Json.cpp:146-197", "src/json/Json.cpp:429-469", "src/include/string_utils/StringCast.h:22-32"]}
{"id": "C126", "title": "Doubles on streams: Vector<double>, Point, stringCast<double>", "statement": "Printing a finite double on a stream gives the number with six significant digits nearest to it (ties to even), in the shortest form, with an exponent exactly if it is below 10^-4 or from 10^6 on (zero: without); so two finite doubles, or two Points of them, print alike exactly if signs and six digits of the coordinates agree. Reading a decimal number gives the nearest double, or the greatest one and a failed stream if that overflows; stringCast<double> does the same, is undefined exactly for blank texts and gives 0 for a text that does not start like a number. A printed Vector<double> of finite elements is read back completely, wherever it stands: every element becomes the double nearest to its six digits. From 10^-300 on the relative error is at most 5.01*10^-6, exactly the doubles nearest to a number with at most six digits survive, and a second round changes neither text nor value. A vector with an infinity or NaN is not read back: in front it is reported as an error, later on the operator never returns. The expectations that every finite double survives, and that text and value settle for subnormal numbers as well, are false (1234567; 1e-318).", "quantifier": "all doubles, all vectors with fewer than 2^31 elements, all decimal numbers of any length, any white space in front and anything that cannot continue the number behind, any content of the uninitialised variables, both signs of NaN", "why_tests_cant": "A test compares a few doubles; which doubles survive double rounding, and where this stops near the smallest ones, is a statement about all 2^64 values, and non-termination cannot be observed.", "anchors": ["src/include/containers/Vector.h:389-430", "src/include/geometry/Point.h:135-139", "src/include/string_utils/StringCast.h:22-32"]}
{"id": "C127", "title": "References and iterators kept into a Vector", "statement": "A client may keep references (from get, operator[], first, last) or iterators to elements of a Vector while it goes on calling push, insert, erase, set, pop, clear, assignment. Whenever such a program is defined, each reference simply denotes the position it was taken at, and contents and results are the same for every way the library may grow its buffer; the growth policy shows only in whether the program is defined. A buffer that never has room to spare is the worst case: what is defined there is defined with the same results everywhere. With it, a reference can still be used exactly if no call since it was taken erased or inserted at or before its position, popped its element, cleared or assigned the Vector, or pushed or inserted beyond the greatest size the Vector had before the reference was taken; otherwise its use is undefined. An element of the Vector itself may be pushed or inserted, even when the buffer is replaced. Programs that use no reference are never undefined, for any int index. It is not true that a reference survives a push, nor that a program that works with one library works with every one.", "quantifier": "all element types, all initial contents and spare room, all growth policies, all sequences of calls", "why_tests_cant": "Dangling references usually still read the old value, and whether they dangle depends on the capacity the library happens to choose; the statement is about every policy and every sequence of calls.", "anchors": ["src/include/containers/Vector.h:49-98", "src/include/containers/Vector.h:189-212", "src/include/containers/Vector.h:243-342"]}
{"id": "C128", "title": "References and iterators kept into Lists", "statement": "A reference or iterator to an element of a List follows the element: insert, push, push_front, erase, pop and pop_front of other elements, reverse, sort and merge leave it valid and it denotes the same element at the place the call took it to (after sort: behind all smaller elements and behind the equal ones that stood before it; after l.merge(m): as after sorting l followed by m, references into m now denoting elements of l). It becomes invalid exactly when its element is removed (erase, pop, pop_front, clear), and using it then is undefined; merging lists that are not sorted is undefined; every other illegal call stops with an error. A program that removes and merges nothing and uses only references it has taken is never undefined. It is not true that a reference stays at its index.", "quantifier": "all element types with a strict weak order, all contents of two Lists, all sequences of calls with sizes in the range of int", "why_tests_cant": "A test sorts or merges a few lists; where a stable sort or merge takes each element, and that no interleaving of calls loses or confuses a reference, is a statement about all histories.", "anchors": ["src/include/containers/List.h:207-223", "src/include/containers/List.h:265-382"]}
{"id": "C129", "title": "References kept to the values of a Map", "statement": "A reference to the value of a key (from get or operator[]) denotes the value of that key through any sequence of set, operator[], get and erase of other keys: it reads what was last set, and writing through it is like set. It becomes invalid exactly when its key is erased or the Map is cleared, and stays invalid if the key is set again. The value passed to set may be a reference to a value of the same Map, also when the key is new. get of a missing key stops with an error; using an invalid reference is undefined, and nothing else is. It is not true that a reference is valid whenever the Map contains its key.", "quantifier": "all key types with a strict weak order, all value types, all sequences of calls", "why_tests_cant": "A stale reference usually still reads the old value, and re-inserting the key often reuses the same memory, so tests pass; validity after every history is a statement about all sequences of calls.", "anchors": ["src/include/containers/Map.h:205-245", "src/include/containers/Map.h:282-287"]}
{"id": "C130", "title": "Integers of every type as text: stringCast<T> and Vector<T>", "statement": "For every integer type of 16, 32 or 64 bits: a printed value is found again by stringCast and a printed Vector is read back completely, whatever follows. stringCast reads the longest number behind white space and returns it if the type has that value; otherwise the end of the range for a signed type; an unsigned type also accepts a minus sign in front of each of its values and returns 2^bits minus it, and returns its maximum for everything larger in magnitude; no number: 0; a blank text: an uninitialised value. A Vector is read exactly from the texts that are lists of such accepted numbers; a number out of range behind a comma makes reading run forever, in front of one it is reported. The types of 8 bits are characters: stringCast<int8_t>(\"65\") is 54, a Vector of them prints characters and is read back exactly if none is white space and the first is not a closing brace.", "quantifier": "all integer types, all values, all texts and Vectors, all contents of uninitialised variables", "why_tests_cant": "The rules at the ends of eight ranges, for unsigned types with a minus sign and for character types differ; a test samples a few numbers at int.", "anchors": ["src/include/string_utils/StringCast.h:18-37", "src/include/containers/Vector.h:389-430"]}
{"id": "C131", "title": "A loop over a Set, MultiSet or Map whose body inserts and erases", "statement": "A range-based for loop may insert into and erase from the Set, MultiSet or Map it runs over, as long as it does not go on after removing the element it stands at. It sees elements in order (strictly in a Set or Map), goes on to the next element of the contents as they are by then (in a Set or Map: the least one above), sees every initial element that is not removed unless the body leaves the loop, and nothing else but elements the body has inserted. It ends, within as many rounds as there were elements, if nothing is inserted ahead of it. Going on after erasing the present element is undefined, even if it is inserted again; leaving the loop at once is fine. Inserting the present element again leaves a Set as it is, but over a MultiSet that is not empty such a loop never ends.", "quantifier": "all element types with a strict weak order, all reachable containers, all loop bodies (any calls, chosen by what has been seen so far)", "why_tests_cant": "A test runs one body over one container; use of a freed tree node usually goes unnoticed, and no test can show that a loop never ends.", "anchors": ["src/include/containers/Set.h:76-97", "src/include/containers/Set.h:187-200", "src/include/containers/MultiSet.h:82-103", "src/include/containers/MultiSet.h:193-215", "src/include/containers/Map.h:109-124", "src/include/containers/Map.h:217-245"]}
{"id": "C132", "title": "mapAll and filterContainer with a function that changes the Set or MultiSet", "statement": "The function given to mapAll or filterContainer may insert into and erase from the Set or MultiSet being traversed, as long as it does not remove its own argument. It is then called with elements in order (strictly in a Set), with every initial element that it does not remove, and with none but these and those it has inserted; mapAll returns the result of each call, filterContainer the elements for which it was true, and the container afterwards is the one these calls make. If nothing is inserted ahead, both end after at most as many calls as there were elements. With a function that leaves the container alone they are map and filter. Erasing from within the function the elements that do not pass is undefined whenever there is one, and mapAll need not return one result for each element there was.", "quantifier": "all element types with a strict weak order, all reachable Sets and MultiSets, all functions (any calls and result, chosen by the elements seen so far)", "why_tests_cant": "A test runs one function over one container; reading a freed tree node usually goes unnoticed.", "anchors": ["src/include/algorithm/Map.h:19-31", "src/include/algorithm/Filter.h:19-30", "src/include/containers/Set.h:76-97", "src/include/containers/MultiSet.h:82-103"]}
{"id": "C133", "title": "A loop over a List whose body changes it", "statement": "A range-based for loop over a List follows the element it stands at through every call its body makes (inserting, erasing, pushing, popping, reversing, sorting, writing to the element) and goes on to the element behind it in the List as it is by then. If the body neither removes nor reorders, there is no undefined behaviour and every element there was is seen, in order. A List can serve as a list of work: what the body pushes to the back is seen too, in the order of the pushes, and everything in the List has been seen exactly once when the loop ends; but if every round pushes something it never ends. What is pushed to the front is not seen. Going on after removing the present element is undefined; reversing the List at its first element ends the loop after that element.", "quantifier": "all element types with a strict weak order, all Lists, all loop bodies with int indices (any calls, chosen by what has been seen so far)", "why_tests_cant": "A test runs one body over one List; use of a freed node usually goes unnoticed, and no test can show that a loop never ends.", "anchors": ["src/include/containers/List.h:206-226", "src/include/containers/List.h:265-377"]}
{"id": "C134", "title": "References kept into a Stack or a Queue", "statement": "The reference that top of a Stack, or first or last of a Queue returns can be kept. As long as it can be used, it is the element at a fixed place: reading gives the present value, and what is written is what pop or dequeue later returns. Pushing never makes it unusable, not even pushing the element itself. A reference into a Stack is usable exactly until the Stack has been as low as what was below the element, or is assigned to; one into a Queue exactly until its element is dequeued, or the Queue is cleared or assigned to. Assignment copies: writing through references into one container never changes the other. A reference to the top does not follow the top: after a pop and a push it is unusable. The first or last element of an empty Queue is taken without a check.", "quantifier": "all element types, all pairs of Stacks or of Queues, all programs that use them and any number of references (clear and size up to INT_MAX elements)", "why_tests_cant": "A test sees one program on one library; use of a freed element usually goes unnoticed, and that a reference stays usable depends on every call made since.", "anchors": ["src/include/containers/Stack.h:137-184", "src/include/containers/Queue.h:150-205"]}
{"id": "C135", "title": "A loop over a MultiMap whose body erases", "statement": "A range-based for loop over a MultiMap whose body erases keys, clears the MultiMap or assigns to the value of the element it stands at goes through the contents in order, each time to the next element that is still there. It sees every element at most once; if the body does not leave the loop, every element whose key is never erased is seen, each as often as it is there. It ends after at most as many rounds as there were elements. Afterwards the keys are those no call has erased, each as often as before. Erasing other keys, also ahead of the loop or absent ones, is always safe; erasing the key of the present element (which removes all elements with that key) is fine if the body leaves the loop at once, and undefined if it goes on.", "quantifier": "all key and value types with a strict weak order on keys, all MultiMaps, all loop bodies (any calls, chosen by what has been seen so far)", "why_tests_cant": "A test runs one body over one MultiMap; use of a freed node usually goes unnoticed.", "anchors": ["src/include/containers/MultiMap.h:78-100", "src/include/containers/MultiMap.h:198-206"]}
{"id": "C136", "title": "Sums of float, double and long double; the mean of floats", "statement": "sum of an array adds its first `size` elements (none if `size` is not positive), sum of a container all of them, the forms with a function what the function returns, all from left to right in the type itself. If the result is finite, it differs from the exact sum by at most ((1+u)^(n-1) - 1) times the exact sum of the absolute values, n the number of elements and u = 2^-24 (float), 2^-53 (double), 2^-64 (long double). Whole numbers are added exactly as long as every partial sum stays within 2^24 (2^53, 2^64). Beyond that a sum may stand still: n ones add up to min(n, 2^24) (2^53, 2^64), so the mean of 2^25 floats equal to 1 is 0.5, and a sum depends on the order of the elements. mean of floats is the sum in float divided by the size with one rounding to double.", "quantifier": "all three floating-point types, all arrays and containers of finite values, all sizes", "why_tests_cant": "A test adds a few values of similar size, where the rounding is not visible, and never sixteen million of them.", "anchors": ["src/include/math_utils/math_functions.h:57-64", "src/include/math_utils/math_functions.h:76-83", "src/include/math_utils/math_functions.h:102-134", "src/include/math_utils/math_functions.h:143-161"]}
{"id": "C137", "title": "A loop over a Vector whose body changes it", "statement": "A range-based for loop over a Vector goes through the indices from 0 to the size the Vector had at the start. Its body may read, set elements and assign to the loop variable: the loop sees at each index what is there when it arrives (so a value set ahead of it is seen), ends after as many rounds as there were elements unless it is left before, and is never undefined. `for (auto& e : v) e = f(e);` applies f to every element once. A round may push, insert, erase, pop or clear if it leaves the loop in the same round and does not use the loop variable afterwards. It is not true that elements may be added or removed while the loop goes on: no program that does so is defined, however much room the buffer has. Whether the loop variable can be written after a push, even if the loop is left then, depends on the room there is.", "quantifier": "all element types, all Vectors, all capacities and growth policies, all loop bodies (any calls with int indices, chosen by what has been seen so far)", "why_tests_cant": "A loop that pushes usually seems to work as long as the buffer has room; a test sees one growth policy and one body.", "anchors": ["src/include/containers/Vector.h:195-210", "src/include/containers/Vector.h:243-342"]}
