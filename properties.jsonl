{"id": "C01", "title": "Versions are totally ordered", "statement": "The six comparison operators on versions form one consistent total order: exactly one of v<w, v==w, v>w holds; <= is < or ==; >= is > or ==; != is the negation of ==; < is transitive and irreflexive, == is an equivalence.", "quantifier": "all pairs and triples of versions, any ints, any tags, any local parts", "why_tests_cant": "pairs and triples of versions are infinite; a test list orders a couple of dozen strings", "anchors": ["versions/version.py:Version.compare_key", "versions/segments/release.py:Release.compare_parts", "versions/segments/tags.py:Tag", "versions/segments/local.py:Local.compare_parts", "versions/types.py:Infinity,NegativeInfinity"]}
{"id": "C02", "title": "What version equality means", "statement": "v == w holds exactly when the epochs are equal, the releases agree part by part after padding with zeros, the pre/post/dev tags have equal phase and value (or are both absent) and the local parts are equal (or both absent).", "quantifier": "all pairs of versions with non-negative release parts", "why_tests_cant": "trailing zero handling must be right for every release length", "anchors": ["versions/version.py:Version", "versions/segments/release.py:default_compare_parts"]}
{"id": "C03", "title": "Order is epoch, then release, then tags, then local", "statement": "v < w is decided by the first difference in: epoch; release read as an infinite zero-padded sequence; then the PEP 440 tag order; then local segment.", "quantifier": "all pairs of versions with non-negative release parts", "why_tests_cant": "a lexicographic rule over unbounded sequences", "anchors": ["versions/version.py:default_compare_key", "versions/segments/release.py:default_compare_parts"]}
{"id": "C04", "title": "Phases of one release sort the PEP 440 way", "statement": "For one epoch and release: X.devN < X pre-releases < X < X.postN; within pre-releases alpha < beta < candidate < preview < rc, then value; a dev release of a pre/post release sorts before that release and after everything lower; local versions sort right after their public version.", "quantifier": "all versions sharing epoch and release", "why_tests_cant": "tags carry unbounded integers and combine freely", "anchors": ["versions/version.py:compute_compare_tags", "versions/phases.py"]}
{"id": "C05", "title": "Padding and trailing zeros are invisible", "statement": "Padding a release with zeros (pad_to, pad_to_index, pad_to_next) yields a version equal to the original, that compares identically with every other version.", "quantifier": "all versions, all lengths/indices", "why_tests_cant": "arbitrary lengths", "anchors": ["versions/segments/release.py:pad_to,pad_to_index,pad_to_next", "versions/version.py"]}
{"id": "C06", "title": "Local segments compare part by part", "statement": "With everything else equal, absence of local is lowest; integer parts are above every string part; integers compare numerically, strings lexicographically; a proper prefix is lower.", "quantifier": "all pairs of local segments", "why_tests_cant": "mixed unbounded lists", "anchors": ["versions/segments/local.py:default_compare_parts"]}
{"id": "C07", "title": "to_string / parse_version round trip", "statement": "parse_version(v.to_string()) returns a version with exactly the same epoch, release parts, tags and local parts.", "quantifier": "every well-formed version (as the parser can produce)", "why_tests_cant": "every number of parts, every integer, every tag combination", "anchors": ["versions/version.py:to_string", "versions/parsers.py:VersionParser.parse", "versions/patterns.py:VERSION"]}
{"id": "C08", "title": "to_short_string / parse_version round trip", "statement": "parse_version(v.to_short_string()) returns exactly v.", "quantifier": "every well-formed version", "why_tests_cant": "as above", "anchors": ["versions/version.py:to_short_string", "versions/parsers.py:VersionParser.parse"]}
{"id": "C09", "title": "PEP 440 string", "statement": "parse_version(v.to_pep440_string()) returns v.normalize(); normalize is idempotent and only rewrites the tag phases.", "quantifier": "every well-formed version", "why_tests_cant": "as above", "anchors": ["versions/version.py:to_pep440_string,normalize", "versions/phases.py:PHASE_TO_NORMAL"]}
{"id": "C10", "title": "Exactly the documented grammar is accepted", "statement": "parse_version(s) succeeds exactly for strings of the grammar [v][N!]N(.N)*[pre][post][dev][+local] with optional separators, and the result is the reading of the grammar tree (values default to 0, '-N' is an implicit post release, a digit run after a separator belongs to the preceding pre tag).", "quantifier": "all strings", "why_tests_cant": "infinitely many strings, accepted and rejected", "anchors": ["versions/patterns.py:VERSION_PATTERN", "versions/parsers.py:VersionParser,TagParser"]}
{"id": "C11", "title": "Parsing fails only with ParseVersionError", "statement": "parse_version(s) either returns a version or raises ParseVersionError, never anything else; in particular the documented case-insensitivity covers tags.", "quantifier": "all strings", "why_tests_cant": "every string", "anchors": ["versions/parsers.py:VersionParser.parse", "versions/segments/tags.py:check_phase"]}
{"id": "C12", "title": "Parsed versions are well formed", "statement": "Every version returned by parse_version has non-negative numbers, a non-empty release, canonical tag phases and a non-empty local made of non-negative ints and alphanumeric words.", "quantifier": "all strings", "why_tests_cant": "every string", "anchors": ["versions/parsers.py", "versions/patterns.py", "versions/segments/tags.py", "versions/segments/local.py"]}
{"id": "C13", "title": "Spelling variants parse to equal versions", "statement": "A leading v, leading zeros, the choice of '.', '-', '_' or nothing as separator, and long/short phase spelling do not change the parsed version.", "quantifier": "all grammar trees", "why_tests_cant": "all combinations", "anchors": ["versions/patterns.py:VERSION_PATTERN", "versions/segments/tags.py:convert_phase"]}
{"id": "C14", "title": "Release bumps strictly increase a version", "statement": "next_major, next_minor, next_micro/next_patch, next_at(i) return a version strictly greater than the original.", "quantifier": "all versions with non-negative release parts, all non-negative indices", "why_tests_cant": "all releases, all tags", "anchors": ["versions/version.py:next_major,next_minor,next_micro,next_patch,next_at", "versions/segments/release.py:next_at"]}
{"id": "C15", "title": "Release bumps have the documented shape", "statement": "On a stable version next_at(i) keeps the parts before i, adds one to part i (0 if absent), zeroes the later parts, keeps precision max(precision, i+1), keeps the epoch and drops tags and local; on an unstable version it only drops tags and local.", "quantifier": "all versions, all non-negative indices", "why_tests_cant": "all precisions", "anchors": ["versions/version.py:next_at", "versions/segments/release.py:next_at"]}
{"id": "C16", "title": "Tag bumps", "statement": "next_post, next_epoch always strictly increase; next_pre and next_dev strictly increase when the tag is present; next_pre_phase strictly increases when it returns a version for a tagged version, and returns None exactly for phases with no successor.", "quantifier": "all versions", "why_tests_cant": "unbounded values and combinations", "anchors": ["versions/version.py:next_pre,next_pre_phase,next_post,next_dev,next_epoch", "versions/segments/tags.py:next,next_phase"]}
{"id": "C17", "title": "next_breaking follows the SemVer table", "statement": "For a stable version next_breaking is the release with its leftmost non-zero among major/minor/micro bumped and everything after zeroed (if all present of them are zero, the last present one), no tags, same epoch.", "quantifier": "all versions with non-negative parts, all precisions", "why_tests_cant": "a table of eight rows is tested", "anchors": ["versions/version.py:next_breaking", "versions/operators.py:next_caret_breaking"]}
{"id": "C18", "title": "Breaking versions bound from above", "statement": "next_caret_breaking, next_tilde_breaking, next_tilde_equal_breaking and next_wildcard_breaking return a version strictly above their argument, so that the corresponding specifier accepts its own version.", "quantifier": "all versions with non-negative release parts", "why_tests_cant": "all tags combinations", "anchors": ["versions/operators.py:next_*_breaking"]}
{"id": "C19", "title": "to_semantic and to_stable", "statement": "to_semantic yields a release of precision three, not below the original, equal to it when nothing is cut, idempotent; to_stable yields a stable version, identity on stable ones, idempotent.", "quantifier": "all versions with non-negative release parts", "why_tests_cant": "all precisions", "anchors": ["versions/version.py:to_semantic,to_stable", "versions/segments/release.py:to_semantic"]}
{"id": "C20", "title": "Updates touch only what they name", "statement": "Every set_*/with_*/without_* method changes exactly the named segment(s) and leaves the others, and get/set at an index obey the array laws (set then get, padding with zeros).", "quantifier": "all versions, all values, all non-negative indices", "why_tests_cant": "arbitrary indices", "anchors": ["versions/version.py:set_*,with_*,without_*", "versions/segments/release.py:set_at,get_at"]}
{"id": "C21", "title": "Ranges contain exactly the versions between their bounds", "statement": "VersionRange(min,max,include_min,include_max).contains(v) iff min <(=) v <(=) max, absent bounds being infinite; construction fails exactly when an infinite bound is included or min > max; VersionPoint(v) contains exactly the versions equal to v.", "quantifier": "all ranges and versions", "why_tests_cant": "all versions", "anchors": ["versions/version_sets.py:VersionRange.contains,__attrs_post_init__,VersionPoint.contains"]}
{"id": "C22", "title": "Intersection is set intersection", "statement": "a.intersection(b) never fails and contains v iff both contain v.", "quantifier": "all canonical version sets (any number of items) and all versions", "why_tests_cant": "any number of ranges", "anchors": ["versions/version_sets.py:intersection,intersection_iterator"]}
{"id": "C23", "title": "Union is set union", "statement": "a.union(b) never fails and contains v iff a or b contains v.", "quantifier": "all canonical version sets and all versions", "why_tests_cant": "any number of ranges", "anchors": ["versions/version_sets.py:union,VersionUnion.merge,of,of_iterable"]}
{"id": "C24", "title": "Difference is set difference", "statement": "a.difference(b) never fails and contains v iff a contains v and b does not.", "quantifier": "all canonical version sets and all versions", "why_tests_cant": "any number of ranges; two-pointer loop", "anchors": ["versions/version_sets.py:difference,difference_iterator,ItemsDifference"]}
{"id": "C25", "title": "Complement is set complement", "statement": "a.complement() never fails, contains v iff a does not, and complementing twice gives back a set equal to a.", "quantifier": "all canonical version sets and all versions", "why_tests_cant": "any number of ranges", "anchors": ["versions/version_sets.py:complement"]}
{"id": "C26", "title": "Symmetric difference", "statement": "a.symmetric_difference(b) contains v iff exactly one of a, b does.", "quantifier": "all canonical version sets and versions", "why_tests_cant": "any number of ranges", "anchors": ["versions/version_sets.py:symmetric_difference"]}
{"id": "C27", "title": "includes is the subset test", "statement": "a.includes(b) holds iff every version in b is in a.", "quantifier": "all canonical version sets whose bounds have only integers and non-empty words in their local segments (as parsing yields), over all such versions, and over all versions that can be written down for bounds above 0.dev0", "why_tests_cant": "any number of ranges", "anchors": ["versions/version_sets.py:includes,is_lower,is_higher"]}
{"id": "C28", "title": "intersects is the overlap test", "statement": "a.intersects(b) holds iff a.intersection(b) is not empty, and implies/follows from the existence of a common version.", "quantifier": "all canonical version sets whose bounds have only integers and non-empty words in their local segments (as parsing yields), over all such versions, and over all versions that can be written down for bounds above 0.dev0", "why_tests_cant": "any number of ranges", "anchors": ["versions/version_sets.py:intersects,is_strictly_lower,is_strictly_higher"]}
{"id": "C29", "title": "Canonical form is an invariant", "statement": "Every set built from canonical sets by any sequence of intersection, union, difference, complement is again canonical: items non-empty, sorted, neither overlapping nor touching, at least two in a union, never a universal item in a union.", "quantifier": "all operation sequences (every result that is returned)", "why_tests_cant": "unbounded histories", "anchors": ["versions/version_sets.py:VersionUnion.merge,check_items"]}
{"id": "C30", "title": "Set equality is extensional", "statement": "Two canonical sets are == exactly when they have the same members, so boolean algebra laws (commutativity, associativity, idempotence, absorption, De Morgan) hold with ==.", "quantifier": "all canonical version sets whose bounds have only integers and non-empty words in their local segments (as parsing yields), over all such versions, and over all versions that can be written down for bounds above 0.dev0", "why_tests_cant": "all sets", "anchors": ["versions/version_sets.py:__eq__"]}
{"id": "C31", "title": "VersionUnion.of does not depend on order or nesting", "statement": "VersionUnion.of over any permutation or regrouping of the same sets gives an equal set.", "quantifier": "all lists of canonical sets for which VersionUnion.of returns", "why_tests_cant": "all permutations", "anchors": ["versions/version_sets.py:VersionUnion.merge"]}
{"id": "C32", "title": "is_empty / is_universal are exact", "statement": "is_empty() iff the set contains no version; is_universal() iff it contains every version.", "quantifier": "all canonical version sets whose bounds have only integers and non-empty words in their local segments (as parsing yields), over all such versions, and over all versions that can be written down for bounds above 0.dev0", "why_tests_cant": "quantifies over all versions", "anchors": ["versions/version_sets.py:is_empty,is_universal"]}
{"id": "C33", "title": "Ranges are totally ordered", "statement": "The comparison operators of ranges and points form a total order consistent with ==.", "quantifier": "all ranges and points", "why_tests_cant": "all pairs, triples", "anchors": ["versions/version_sets.py:compare"]}
{"id": "C34", "title": "Operators mean what the documentation says", "statement": "For every operator the matches function is the documented formula: ^, ~, ~=, =, ==, !=, <, <=, >, >=, =*, ==*, !=*.", "quantifier": "all operators, all version pairs", "why_tests_cant": "all versions", "anchors": ["versions/operators.py:matches_*"]}
{"id": "C35", "title": "Operator matching and translation agree", "statement": "For every operator, translate(version) never fails on a valid operator and contains w exactly when matches(w, version).", "quantifier": "all operators, all version pairs", "why_tests_cant": "all versions", "anchors": ["versions/operators.py:OPERATOR,translate_*,matches_*"]}
{"id": "C36", "title": "Wildcards select a release prefix", "statement": "== x.y.* accepts a version exactly when its epoch matches and its release starts with x.y; !=* is its exact complement; * accepts everything.", "quantifier": "all prefixes and versions", "why_tests_cant": "all prefixes", "anchors": ["versions/operators.py:next_wildcard_breaking,matches_wildcard_equal"]}
{"id": "C37", "title": "Specifiers and their version sets accept the same versions", "statement": "Whenever specifier_to_version_set(s) returns, it contains v iff s accepts v; and it always returns.", "quantifier": "all specifier trees, all versions", "why_tests_cant": "unbounded trees", "anchors": ["versions/converters.py:specifier_to_version_set", "versions/specifiers.py"]}
{"id": "C38", "title": "Version sets and their specifiers accept the same versions", "statement": "version_set_to_specifier(a) never fails, accepts v iff a contains v, and converting back gives a set equal to a.", "quantifier": "all canonical sets, all versions", "why_tests_cant": "any number of items", "anchors": ["versions/converters.py:version_set_to_specifier", "versions/converters_utils.py"]}
{"id": "C39", "title": "simplify preserves meaning", "statement": "simplify(s) accepts exactly the versions s accepts, and simplifying again gives an equal specifier.", "quantifier": "all specifier trees for which conversion succeeds", "why_tests_cant": "unbounded trees", "anchors": ["versions/converters.py:simplify"]}
{"id": "C40", "title": "Specifier strings parse back", "statement": "parse_specifier(str(s)) returns a specifier equal to s.", "quantifier": "all specifiers the parser can produce", "why_tests_cant": "all versions and trees", "anchors": ["versions/specifiers.py:to_string", "versions/operators.py:Operator.to_string", "versions/parsers.py:SpecifierParser"]}
{"id": "C41", "title": "Version set strings parse back", "statement": "parse_version_set(str(a)) (and the short string) returns a set equal to a.", "quantifier": "all canonical sets with printable bounds", "why_tests_cant": "any number of items", "anchors": ["versions/version_sets.py:to_string,to_short_string", "versions/functions.py:parse_version_set"]}
{"id": "C42", "title": "Whitespace is irrelevant in specifications", "statement": "Inserting or deleting whitespace anywhere in a specification does not change the result of parse_specifier or parse_version_set.", "quantifier": "all strings", "why_tests_cant": "all strings", "anchors": ["versions/string.py:clear_whitespace", "versions/parsers.py:SpecifierParser.parse"]}
{"id": "C43", "title": "'|' and ',' have the documented structure", "statement": "parse_specifier splits on | or || into alternatives and on , into conjuncts; the result accepts v iff some alternative has all its conjuncts accept v.", "quantifier": "all lists of lists of single specifications", "why_tests_cant": "any number of clauses", "anchors": ["versions/parsers.py:parse_any,parse_all", "versions/string.py:split_pipes,split_comma"]}
{"id": "C44", "title": "Parsing specifications fails only with ParseError", "statement": "parse_specifier(s) and parse_version_set(s) either return or raise ParseError.", "quantifier": "all strings", "why_tests_cant": "all strings", "anchors": ["versions/parsers.py:SpecifierParser", "versions/errors.py"]}
{"id": "C45", "title": "What the caches remember", "statement": "parse_version and parse_specifier give the same result after any calls. specifier_to_version_set and parse_version_set give the result they would give alone for the specifier in which every operator is replaced by the first operator of the same name with an equal version that was converted successfully in this process (including earlier in the same specifier); version_set_to_specifier and simplify likewise, with the items of the set. For one operator the answer is the one without history exactly if that first operator was written as precisely; so after parsing '*' the text '0.*' stands for all versions. Answers compare equal to those without history whenever equal versions are spelled precisely enough, and version_set_to_specifier always returns an equal specifier.", "quantifier": "all call histories; all hash functions (those without collisions for the exact answer)", "why_tests_cant": "unbounded histories", "anchors": ["versions/utils.py:cache", "versions/converters.py", "versions/functions.py"]}
{"id": "C46", "title": "All loops terminate", "statement": "Every operation on version sets terminates (no RecursionError, no endless loop).", "quantifier": "all canonical inputs", "why_tests_cant": "all inputs", "anchors": ["versions/version_sets.py:VersionUnion.merge,includes,intersects,intersection_iterator,ItemsDifference.loop"]}
{"id": "C47", "title": "Set operators on every kind of set", "statement": "The operators &, |, -, ^, in and the method symmetric_difference work on every version set and agree with the named methods; ~ is complement.", "quantifier": "all version sets", "why_tests_cant": "all classes of sets", "anchors": ["versions/version_sets.py:VersionSetProtocol,VersionUnion"]}
{"id": "C48", "title": "matches and accepts agree", "statement": "version.matches(spec) equals spec.accepts(version), for version sets equal to contains.", "quantifier": "all specifications and versions", "why_tests_cant": "all", "anchors": ["versions/version.py:matches", "versions/specification.py"]}
{"id": "C49", "title": "Equal versions are interchangeable in specifications", "statement": "If v == w then every specifier and set accepts v iff it accepts w.", "quantifier": "all specifiers, sets, pairs of equal versions", "why_tests_cant": "all", "anchors": ["versions/specifiers.py", "versions/version_sets.py"]}
{"id": "C50", "title": "Equal specifiers accept the same versions", "statement": "If two specifiers are == then they accept the same versions.", "quantifier": "all pairs of specifiers", "why_tests_cant": "all", "anchors": ["versions/specifiers.py", "versions/operators.py:OperatorType.__eq__"]}
{"id": "C51", "title": "Exact outcome of union", "statement": "a.union(b) recurses for ever exactly when a and b hold a single version v, a range starting just after v, and no range reaching v (for two single items: a is the version and b the range); in every other case it returns the canonical set of the versions of a or b. The same holds for VersionUnion.of over any list.", "quantifier": "all canonical version sets", "why_tests_cant": "the failing pairs are adjacent bounds among infinitely many sets; a test only sees the pairs it lists", "anchors": ["versions/version_sets.py:union,VersionUnion.merge,of,of_iterable"]}
{"id": "C52", "title": "Exact outcome of difference", "statement": "a.difference(b) returns a unchanged when a is a range covered by one item of the union b, returns the empty set when a is a union and b is empty, and in every other case returns the canonical set of the versions of a not in b.", "quantifier": "all canonical version sets", "why_tests_cant": "the wrong cases are only separated from the right ones by proof over all shapes of item lists", "anchors": ["versions/version_sets.py:difference,difference_iterator,ItemsDifference"]}
{"id": "C53", "title": "Exact outcome of symmetric difference", "statement": "For a single item a and any b whose union returns, a.symmetric_difference(b) is empty when the two are disjoint and their union is a union of items, and otherwise is the canonical set of versions in exactly one; where the union recurses without end, so does this; the empty set gives b; a union has no such method.", "quantifier": "all canonical version sets", "why_tests_cant": "same", "anchors": ["versions/version_sets.py:symmetric_difference"]}
{"id": "C54", "title": "Set operations invent no bounds", "statement": "Every bound of the result of union, intersection, difference, symmetric_difference, complement and VersionUnion.of is one of the very versions that bound the arguments.", "quantifier": "all version sets, canonical or not", "why_tests_cant": "any number of items; a test can only list the bounds of a few results", "anchors": ["versions/version_sets.py:union,intersection,difference,symmetric_difference,complement,VersionUnion.of"]}
{"id": "C55", "title": "Operations respect equality of version sets", "statement": "If a == a' and b == b', then a.union(b) == a'.union(b'), a.intersection(b) == a'.intersection(b'), a.difference(b) == a'.difference(b'), a.symmetric_difference(b) == a'.symmetric_difference(b') and a.complement() == a'.complement() (or both sides raise the same exception), a contains a version iff a' contains an equal one, and the two convert to equal specifiers.", "quantifier": "all version sets the constructors and operations make, all versions", "why_tests_cant": "equal sets can be written in unboundedly many ways (trailing zeros in bounds)", "anchors": ["versions/version_sets.py:VersionSet", "versions/converters.py:version_set_to_specifier"]}
{"id": "C56", "title": "Conversions invent no bounds", "statement": "Every bound of specifier_to_version_set(s) is the version of an operator occurring in s or the first version that this operator excludes (next caret, tilde, compatible or wildcard breaking version). Every operator in version_set_to_specifier(a) is one of ==, !=, <, <=, >, >= applied to one of the very versions that bound a. Every operator in a parsed specifier carries a version that can be written and that the operator accepts.", "quantifier": "all specifiers the constructors make, all version sets (canonical or not), all strings", "why_tests_cant": "any number and nesting of operators; a test can only list the bounds of a few conversions", "anchors": ["versions/converters.py:specifier_to_version_set,version_set_to_specifier", "versions/operators.py:translate_*"]}
{"id": "C57", "title": "simplify computes a normal form", "statement": "If simplify returns for two specifiers, then the results are equal (==) exactly when the two specifiers accept the same versions; and the result contains only the operators ==, !=, <, <=, >, >=. So simplify decides whether two specifiers mean the same.", "quantifier": "all specifiers the constructors make whose releases have no negative parts and whose local segments are integers and words, in particular all parsed specifiers; versions of the same kind", "why_tests_cant": "equivalence of specifiers quantifies over infinitely many versions", "anchors": ["versions/converters.py:simplify"]}
{"id": "C58", "title": "Every comparison operator answers between versions", "statement": "Between any two versions each of ==, !=, <, <=, >, >= returns without raising, whichever tags are present, and the six answers are those of one total order (the order of C03). The infinities placed in comparison keys are the ends of that order from either side, whatever they are compared with. Comparing a version with something else gives unequal, or TypeError for the ordering operators.", "quantifier": "all versions; all objects built from integers, strings, tuples, infinities and segment objects", "why_tests_cant": "the outcome depends on which operand's method Python tries first and on every combination of present and missing tags", "anchors": ["versions/types.py:Infinity,NegativeInfinity", "versions/version.py:default_compare_key", "versions/segments/*.py"]}
{"id": "C59", "title": "Segments compare on their own as they do inside versions", "statement": "For each segment class, comparing two segments with any operator gives the answer of comparing two versions that differ only in that segment: releases as zero-padded sequences, tags by phase then value, locals part by part. Tags of different classes are unequal and not ordered.", "quantifier": "all versions, all pairs of segments, all six operators", "why_tests_cant": "every surrounding version has to be considered", "anchors": ["versions/segments/release.py", "versions/segments/tags.py", "versions/segments/local.py", "versions/segments/epoch.py"]}
{"id": "C60", "title": "python_version_info keeps Python's order", "statement": "The version computed from sys.version_info exists for every tuple CPython can report, and two such versions compare as the tuples do, with alpha < beta < candidate < final.", "quantifier": "all tuples with non-negative numbers, one of the four levels, and serial 0 for final", "why_tests_cant": "a test sees the one Python it runs on", "anchors": ["versions/meta.py:python_version_info"]}
{"id": "C61", "title": "The command prints a version that parses back", "statement": "With --raw the command prints a string that parse_version reads as exactly the version asked for (the library's, or Python's with --python), with or without --normal; without --raw the same string is printed after the name and a space.", "quantifier": "all flags, all tuples CPython can report", "why_tests_cant": "a test sees the one Python it runs on", "anchors": ["versions/main.py:versions", "versions/versioned.py:get_version"]}
{"id": "C62", "title": "Strings and representations are unambiguous", "statement": "Two writable versions with the same to_string (or the same repr) are the same in every segment, including those whose string does not parse back (candidate). In general the class name and the string can be read off a repr.", "quantifier": "all writable versions; all class names without spaces, all strings", "why_tests_cant": "injectivity relates all pairs of versions", "anchors": ["versions/representation.py:Representation.__repr__", "versions/version.py:to_string"]}
{"id": "C63", "title": "Accessors read the parts of the release", "statement": "major, minor, micro read the zero-padded release; extra is what follows the first three parts; precision and has_* count parts; unchecked access and update take indices from either end and raise IndexError exactly outside; slice keeps a prefix and raises ValueError exactly when nothing is left. Parts read at all indices determine the release up to trailing zeros.", "quantifier": "all versions, all indices (negative too)", "why_tests_cant": "all release lengths and indices", "anchors": ["versions/version.py:major,minor,micro,extra,get_at_unchecked,set_at_unchecked,slice,has_at", "versions/segments/release.py"]}
{"id": "C64", "title": "Constructors accept exactly the documented words", "statement": "Creating or re-phasing a tag of a class succeeds exactly for the words of that class, stores the long form and keeps the value; otherwise ValueError. Version.create and from_parts build exactly the given segments with defaults 0 and 0.0.0, reject an empty release, and rebuild every version from its own segments; what they build is valid.", "quantifier": "all strings, all classes, all segments", "why_tests_cant": "infinitely many strings are not phases", "anchors": ["versions/segments/tags.py:create,set_phase,set_value", "versions/version.py:create,from_parts"]}
{"id": "C65", "title": "weaken drops what the other lacks", "statement": "v.weaken(w) is w without its local segment if v has none and without its post tag if v has none. It never exceeds w, equals w only if nothing was dropped, is idempotent, and weakenings commute.", "quantifier": "all pairs of versions", "why_tests_cant": "all combinations of segments", "anchors": ["versions/version.py:weaken"]}
{"id": "C66", "title": "Segment strings parse back", "statement": "Tag.from_string reads back both renderings of every tag of every class, including candidate, and on any string returns exactly: the tag when the word is one of the class, ValueError for another word of letters, ParseTagError otherwise. Releases, locals and epochs read back their strings.", "quantifier": "all tags, releases, locals, epochs; all strings for tags", "why_tests_cant": "infinitely many strings", "anchors": ["versions/parsers.py:TagParser.parse", "versions/segments/*.py:from_string,to_string"]}
{"id": "C67", "title": "Equal objects have equal hashes", "statement": "Whenever x == y holds for epochs, releases, tags, locals, versions, tuples of them, or version sets, hash(x) == hash(y); all these can be hashed. Releases, locals and versions have one hash each; epochs and tags hash equally, if tuples do not collide, only if their values and phases do and they are of one class. Specifiers that are equal hash equally when, and without collisions only when, their operators are spelled alike; =1 and ==1 are equal and hash differently.", "quantifier": "all objects, all hash functions for integers, strings and tuples", "why_tests_cant": "all pairs of equal objects and all hash seeds", "anchors": ["versions/version.py:Version", "versions/segments/*.py", "versions/types.py", "versions/version_sets.py:__hash__", "versions/operators.py:__eq__,__hash__"]}
{"id": "C68", "title": "Relations between ranges mean what they say", "statement": "s.is_lower(o) iff some version is not below s's start but below o's; is_higher likewise for ends; is_strictly_lower iff every version of s is below every version of o; is_strictly_higher is its converse; exactly one of strictly lower, strictly higher and intersecting holds; is_left_adjacent iff s ends exactly where o starts; is_adjacent iff no version is in both and none lies between.", "quantifier": "all points and valid ranges, all versions", "why_tests_cant": "quantifies over all versions between bounds", "anchors": ["versions/version_sets.py:is_lower,is_higher,is_strictly_lower,is_strictly_higher,is_left_adjacent,is_right_adjacent,is_adjacent,intersects_range"]}
{"id": "C69", "title": "Single ranges and single holes", "statement": "A canonical set is one point or range iff it has a member and every version between two members is a member. The union of two ranges is one range iff nothing lies between them iff they intersect or are adjacent. exclude_version returns a version iff the union accepts exactly the versions not equal to it.", "quantifier": "all canonical sets, all versions", "why_tests_cant": "quantifies over all versions between members", "anchors": ["versions/version_sets.py:VersionRange.union,VersionUnion.exclude_version,VersionUnion.merge"]}
{"id": "C70", "title": "Operator types are equal iff they match alike", "statement": "Two operator types are equal iff they match the same versions against every version both can be used with; equal ones also translate alike; equality is an equivalence.", "quantifier": "all pairs of operator types, all versions", "why_tests_cant": "all versions on both sides", "anchors": ["versions/operators.py:OperatorType.__eq__,OPERATOR"]}
{"id": "C71", "title": "Bumps skip nothing", "statement": "next_at(i) (next_major, next_minor, next_micro) is at most every release-only version above the version with zeros after part i, and is itself one unless it only finalises a pre-release; bumping keeps the order of two versions exactly unless the lower one is stable, the upper one is not, and both have the same epoch and the same parts up to i. next_dev is the next version without local part, next_post the next without development tag and local part, next_pre the next with only a pre-release tag.", "quantifier": "all versions, all indices", "why_tests_cant": "no version in between, of infinitely many", "anchors": ["versions/version.py:next_at,next_major,next_minor,next_micro,next_pre,next_post,next_dev"]}
{"id": "C72", "title": "Specifications compose", "statement": "'s || t' parses iff s and t parse, and accepts a version iff s or t does (trying t only if s refuses); 's, t' without pipes parses iff s and t parse and accepts iff both do. The same holds of the version sets. A single pipe joins too, but 's|t' may parse when s does not, since the pipe may pair up with one in s.", "quantifier": "all strings s and t, all versions", "why_tests_cant": "all strings on both sides of the separator", "anchors": ["versions/parsers.py:SpecifierParser.parse,parse_any,parse_all", "versions/constants.py:PIPE,DOUBLE_PIPE,COMMA"]}
{"id": "C73", "title": "Strings of version sets are unambiguous", "statement": "Version sets with the same to_string (or to_short_string) are equal, and have the same items unless they exclude a single version.", "quantifier": "all pairs of version sets with writable bounds", "why_tests_cant": "no two of infinitely many sets share a string", "anchors": ["versions/version_sets.py:VersionRange.to_string,VersionPoint.to_string,VersionUnion.to_string,to_short_string"]}
{"id": "C74", "title": "Strings of specifiers are unambiguous", "statement": "Specifiers have the same to_string (or to_short_string) exactly if they are the same tree with the same operators and versions, up to the last number of versions with wildcards, which the strings do not show. Specifiers whose wildcards stand for a zero, as all parsed ones, are the same.", "quantifier": "all pairs of specifiers with writable versions, with and without local parts", "why_tests_cant": "trees of any size; no two of infinitely many share a string", "anchors": ["versions/specifiers.py:to_string,to_short_string", "versions/operators.py:Operator.to_string,to_short_string,wildcard_string"]}
{"id": "C75", "title": "Conversions fail exactly where they must", "statement": "Converting a single operator to a version set fails (ValueError) iff its bounds are inverted (a caret with major 0, tilde or wildcard over a development release of a post-release). A conjunction fails as its first failing member does. A disjunction fails at the first member that fails, or with RecursionError at the first member whose set clashes with the set of the members before it (a single version among the pieces is the excluded lower bound of a range and no other piece reaches it; see C51). simplify fails iff the conversion does, with the same error. For strings: parsing 's || t' as a version set, with t a single alternative, is the union of the two sets; parsing 's, t', with t a single clause, is their intersection.", "quantifier": "all specifier trees whose operators can be constructed over versions with non-negative release; all strings s and t", "why_tests_cant": "unbounded trees and the order of alternatives; an equivalence needs every failure and every success", "anchors": ["versions/converters.py:specifier_to_version_set", "versions/converters.py:simplify", "versions/functions.py:parse_version_set", "versions/version_sets.py:VersionUnion.merge"]}
{"id": "C76", "title": "Representations tell objects apart", "statement": "repr of an epoch, release, tag, local segment, version, operator, specifier or version set never fails, and objects of any of these classes with the same repr are of the same class and equal; they are the same in every part unless both are sets that exclude a single version.", "quantifier": "all pairs of objects of all these classes that can be written down", "why_tests_cant": "pairs of unboundedly large objects across all classes", "anchors": ["versions/representation.py", "versions/segments/*.py", "versions/version.py", "versions/operators.py", "versions/specifiers.py", "versions/version_sets.py"]}
{"id": "C77", "title": "Guards tell kinds apart", "statement": "Each is_version_* and is_specifier_* guard holds for exactly the objects of its kind; points count as ranges and items; is_specification holds for exactly specifiers and version sets, and these are exactly the objects whose accepts works (others raise AttributeError).", "quantifier": "all objects of all classes", "why_tests_cant": "claims about every object of every class, inherited methods included", "anchors": ["versions/version_sets.py:is_version_set,is_version_empty,is_version_point,is_version_range,is_version_union,is_version_item", "versions/specifiers.py:is_specifier*", "versions/specification.py:is_specification"]}
{"id": "C78", "title": "Operator class methods and predicates", "statement": "Operator.<name>(v) builds the operator whose symbol the name stands for, or raises ValueError iff that operator cannot be built over v; called on SpecifierOne it builds a specifier. Of the is_<name> predicates exactly the one of that name holds. Objects that are not operators do not have them (AttributeError). is_wildcard means the type ends with *, is_unary that its symbol is ^ or ~. partial_matches and matches agree and decide what the operator stands for. An operator type is looked up by its symbol, and any other string is a ValueError.", "quantifier": "all operator types, versions and objects", "why_tests_cant": "tables of thirteen types over all versions", "anchors": ["versions/operators.py:Operator", "versions/operators.py:OperatorType"]}
{"id": "C79", "title": "What the boundary predicates of ranges say", "statement": "A range is closed on a side iff its members have a lowest (highest) one, open iff not; it is unbounded on a side iff everything on that side of a member is a member, bounded iff not; is_closed, is_open, is_unbounded, is_bounded mean both sides; is_empty_or_point iff all members are equal; is_point iff its members are those equal to one version, and then version gives such a version, otherwise ValueError; is_empty iff it has no members.", "quantifier": "all ranges with non-empty alphanumeric bounds, all versions", "why_tests_cant": "existence and absence of extreme members in dense infinite orders", "anchors": ["versions/version_sets.py:VersionRange.is_left_closed,is_right_closed,is_closed,is_left_open,is_right_open,is_open,is_unbounded,is_bounded,is_empty_or_point"]}
{"id": "C80", "title": "Life cycle of ItemsDifference", "statement": "compute gives the difference of the items once; afterwards compute and prepare raise ValueError. Without prepare, step and loop raise ValueError. Stepping by hand until the first False gives the same result, within as many steps as there are items. Steps after that change nothing.", "quantifier": "all lists of items, all sequences of steps", "why_tests_cant": "all call orders over unbounded lists", "anchors": ["versions/version_sets.py:ItemsDifference"]}
{"id": "C81", "title": "Canonical versions sort as PEP 440 says", "statement": "< and == on versions are the order and equality PEP 440 defines: epoch, zero-padded release, then .dev < a < b < rc < none < .post with .dev below none at each place, then local words without regard to case. The same holds between normalize()d versions.", "quantifier": "all pairs of parsed versions", "why_tests_cant": "a relation over all pairs of versions against an external standard", "anchors": ["versions/version.py:Version.compare_key", "versions/version.py:Version.normalize", "versions/segments/release.py:Release.compare_parts", "versions/segments/tags.py:Tag.normalize"]}
{"id": "C82", "title": "PEP 440 strings are canonical", "statement": "to_pep440_string returns a canonical string of PEP 440 (no leading zeros, short phases, lower case local words). Every canonical string parses, to a normalized version whose string it is.", "quantifier": "all versions, all strings", "why_tests_cant": "both directions range over infinite sets of strings", "anchors": ["versions/version.py:Version.to_pep440_string", "versions/segments/tags.py:Tag.to_short_string", "versions/parsers.py:VersionParser.parse"]}
{"id": "C83", "title": "Results of set operations stay small", "statement": "The number of items of a union or difference is at most the sum of the numbers of items of the arguments, that of an intersection is one less, and that of a complement at most one more.", "quantifier": "all sets for which the operation returns, canonical or not", "why_tests_cant": "a bound over unions of any length", "anchors": ["versions/version_sets.py:VersionUnion.merge,union,intersection,difference,complement", "versions/version_sets.py:ItemsDifference", "versions/version_sets.py:VersionRange.difference_iterator"]}
{"id": "C84", "title": "Canonical sets are the shortest", "statement": "No list of points and ranges with the same versions has fewer items than a canonical set, so no result of merge or of an operation can be written with fewer items.", "quantifier": "all canonical sets, all lists of points and non-empty ranges with alphanumeric bounds", "why_tests_cant": "ranges over all other ways to write a set", "anchors": ["versions/version_sets.py:VersionUnion.merge"]}
{"id": "C85", "title": "Conversion and simplification do not blow up", "statement": "A specifier with n comparisons converts to a set of at most n + 1 items, and simplify returns at most 2n comparisons, however unions and intersections are nested.", "quantifier": "all specifiers, in particular all parsed ones, for which conversion returns", "why_tests_cant": "distributing unions over intersections could be exponential; the bound is over all nestings", "anchors": ["versions/converters.py:specifier_to_version_set,version_set_to_specifier,simplify"]}
{"id": "C86", "title": "Segments parse alone", "statement": "Epoch.parse accepts exactly the texts Python's int accepts, with their values; Release.parse exactly the texts whose dot-separated pieces int accepts, so also signs, spaces, underscores and other scripts' digits; Local.parse reads each piece between dots, hyphens and underscores as a number if it is all digits and as text otherwise, and refuses a string only for a digit without a decimal value. Failures are ValueErrors.", "quantifier": "all strings, all Unicode tables satisfying four sanity conditions", "why_tests_cant": "an exact account of the accepted strings, over all of Unicode", "anchors": ["versions/segments/epoch.py:Epoch.from_string", "versions/segments/release.py:Release.from_string", "versions/segments/local.py:Local.from_string,local_part", "versions/string.py:split_dot,split_separators,check_int"]}
{"id": "C87", "title": "Segments read back from their strings", "statement": "Parsing the string of an epoch or of a release, negative parts included, gives it back. Parsing the string of a local segment gives it back exactly when its numbers are not negative and its texts contain no separators and are not made of digits. On the strings versions are made of, these parsers agree with the simpler ones used to parse versions.", "quantifier": "all epochs, non-empty releases and local segments", "why_tests_cant": "an equivalence over all segments", "anchors": ["versions/segments/epoch.py:Epoch.to_string", "versions/segments/release.py:Release.to_string", "versions/segments/local.py:Local.to_string"]}
{"id": "C88", "title": "Padding and bumping with other fillers", "statement": "pad_to, pad_to_index and pad_to_next append the given padding until the release has the wanted length and change nothing else; the result is greater than the original when anything but zeros was appended, and equal otherwise. Release.next_at keeps the parts before the index, adds one to the part there (or to the default), and replaces the later parts by the padding.", "quantifier": "all versions, lengths, indices, paddings and defaults", "why_tests_cant": "all lengths and fillers, negative ones too", "anchors": ["versions/segments/release.py:pad_to,pad_to_index,pad_to_next,next_at", "versions/version.py:pad_to,pad_to_index,pad_to_next", "versions/utils.py:fix_to_length"]}
{"id": "C89", "title": "Where clauses differ from PEP 440", "statement": "A clause of PEP 440 (~=, ==, !=, <, <=, >, >=, == with .*, != with .*) accepts a version exactly when PEP 440 says so, pre-releases being asked for, except in these cases: == and <= reject and != accepts local versions of the version named; < accepts pre-releases and > accepts post-releases and local versions of the release named; ~= and == with .* accept early versions (pre- or development releases) of the next release after the prefix, and == with .* rejects those of the prefix itself. In particular, specifiers made of clauses agree with PEP 440 on every version without pre-release, development and local part, unless it is a post-release and > is used with a version that is not.", "quantifier": "all clauses PEP 440 allows, all versions with phases spelled as by PEP 440 and without capitals in the local part, all specifiers made of such clauses", "why_tests_cant": "all pairs of versions; every case of agreement and of difference", "anchors": ["versions/operators.py:matches_tilde_equal,matches_equal,matches_not_equal,matches_less,matches_less_or_equal,matches_greater,matches_greater_or_equal,matches_wildcard_equal,matches_wildcard_not_equal", "versions/specifiers.py:accepts"]}
{"id": "C90", "title": "The digit limit of CPython", "statement": "CPython refuses to convert between str and int when there are more than 4300 digits (by default). With any such limit, parsing a version or a specification gives the same result as without one or raises ValueError; a version is read exactly when none of its numbers has more digits (leading zeros count, words of the local part with letters do not), a specification exactly when this is so for all its versions; in particular strings without a longer run of digits are unaffected. A version or specifier is printed exactly when its numbers are small enough, otherwise ValueError is raised. A version that was read can be printed in its short form and read again; the next version need not be printable.", "quantifier": "all strings, all versions with non-negative numbers, all specifiers, any limit", "why_tests_cant": "strings of thousands of digits at every place of a version; any limit", "anchors": ["versions/parsers.py:VersionParser", "versions/parsers.py:SpecifierParser", "versions/version.py:to_string,to_short_string", "versions/segments/tags.py:Tag", "versions/segments/release.py:Release", "versions/segments/local.py:Local"]}
{"id": "C91", "title": "Versions of different types", "statement": "Versions of two different classes derived from Version are never equal and ordering them raises TypeError; with one class everything is as with Version. A version of another class passes != and the wildcard *, fails = and == and !=*, and makes every other operator raise TypeError; which version it is does not matter. For a parsed specification the first clause not passed decides about an alternative, and the first alternative not failed about the whole. Asking a set raises TypeError exactly when the set has a range with a bound, and otherwise says True for the universal set and False for finitely many points. When the specification and its set both answer they agree, though one may raise where the other answers. A range between versions of different classes is a TypeError, and specifiers read with different classes are unequal.", "quantifier": "all pairs of classes, versions, operators and specification strings", "why_tests_cant": "all specifications against versions of another class; agreement of two evaluations that raise in different cases", "anchors": ["versions/version.py:Version", "versions/functions.py:parse_version,parse_specifier,parse_version_set", "versions/operators.py:matches_caret,matches_tilde,matches_tilde_equal,matches_wildcard_equal,matches_wildcard_not_equal", "versions/specifiers.py:accepts", "versions/version_sets.py:contains"]}
{"id": "C92", "title": "Catching failures of parsing", "statement": "Every exception raised when parsing a string as a tag, a version or a specification is a ValueError, with CPython's digit limit too; for a version it is a ParseError exactly when the string does not match the grammar, and for a specification whenever it has no capitals (or characters that fold like them) and no ~= with one part. Parsing a version set raises a ValueError or else a RecursionError, which is not one, and only for a specification with alternatives. No failure is an InternalError of versions or of sqlite3.", "quantifier": "all strings", "why_tests_cant": "every string that does not parse", "anchors": ["versions/errors.py:ParseError,ParseVersionError,ParseSpecificationError,ParseTagError,InternalError", "versions/parsers.py:TagParser,VersionParser,SpecifierParser,VersionSetParser"]}
{"id": "C93", "title": "Comparing any two objects", "statement": "== answers for any two objects of the library (segments, versions, operators, specifiers, sets), != is its negation, and == is an equivalence under which objects are equal exactly if they are of one kind with equal parts (a point may equal a range; the two spellings of equality are one operator). <, <=, > and >= answer between segments of one class, versions, and ranges and points, where they form a total order consistent with ==; between other objects they raise TypeError, or AttributeError if a range or point takes part. x < y and y > x always agree, errors included, whichever operand Python asks first.", "quantifier": "all pairs and triples of objects of the library, all six operators", "why_tests_cant": "pairs and triples of objects of twelve kinds holding arbitrary versions", "anchors": ["versions/version_sets.py:VersionRange.__eq__,VersionRange.__ne__,VersionRange.__lt__,VersionRange.__le__,VersionRange.__gt__,VersionRange.__ge__,VersionRange.compare", "versions/operators.py:OperatorType.__eq__,Operator", "versions/specifiers.py:SpecifierNever,SpecifierAlways,SpecifierOne,SpecifierAny,SpecifierAll", "versions/segments/tags.py:Tag", "versions/version.py:Version"]}
{"id": "C94", "title": "The pattern texts for versions and tags compile to the documented grammar", "statement": "The text of VERSION_PATTERN, built from f-strings and compiled with IGNORECASE and VERBOSE, is a valid pattern; it matches exactly the strings of the documented grammar, and on each of them the groups epoch, release, pre, post_implicit, post, dev and local hold exactly the corresponding parts. PUBLIC_VERSION_PATTERN matches exactly the versions without a local part, TAG_PATTERN exactly the letters with an optional separator and number (its anchors add nothing, a trailing newline included). All nine patterns match and capture what the regular expressions of the model do.", "quantifier": "all strings over all of Unicode, all trees of the grammar", "why_tests_cant": "the texts nest optional groups and alternatives whose matches overlap; a misplaced quantifier, escape, bracket or blank changes which strings match, or what a group captures, on inputs no test lists", "anchors": ["versions/patterns.py:TAG_PATTERN,PUBLIC_VERSION_PATTERN,LOCAL_PATTERN,VERSION_PATTERN,SEPARATOR,OPTIONAL,SET,FLAGS", "versions/string.py:concat_pipe,concat_empty,create_wrap_around", "versions/parsers.py:TagParser.parse,VersionParser.parse"]}
{"id": "C95", "title": "The pattern texts for specifications compile to operator and version", "statement": "Each of the five specification patterns, compiled from its text, matches exactly the strings made of one of its operators (which may be missing for the equality and wildcard patterns) and a version: without local part for <=, >=, <, >, ^, ~=, ~, any for ==, =, !=, and one whose last number is replaced by *, x or X for the wildcard pattern. The groups operator and version hold exactly these two parts, and no match leaves a group None that the parser takes for granted.", "quantifier": "all strings, operators and versions", "why_tests_cant": "operators that are prefixes of one another and a wildcard expression of eighty lines, over all strings", "anchors": ["versions/patterns.py:WILDCARD_VERSION_PATTERN,WILDCARD_SPECIFICATION_PATTERN,ORDER_SPECIFICATION_PATTERN,CARET_SPECIFICATION_PATTERN,TILDE_SPECIFICATION_PATTERN,EQUAL_SPECIFICATION_PATTERN,CREATE_GROUP,OPERATOR_GROUP,VERSION_GROUP", "versions/parsers.py:SpecifierParser.try_parse_with,SpecifierParser.try_parse_equal,SpecifierParser.try_parse_wildcard"]}
{"id": "C96", "title": "Parsing never backtracks more than linearly", "statement": "Matching a string against any of the compiled patterns takes at most a fixed multiple of its length in steps of a backtracking matcher, whether it matches or not: no input makes TAG, VERSION or one of the specification patterns explode. The same holds for all the matching done to parse a version (the version and its tags), a clause (the patterns tried in turn and the version captured) and a whole specification (all of its clauses).", "quantifier": "all strings", "why_tests_cant": "a bound on the work over all strings, most of which match nothing and are the ones that make a backtracking matcher try everything", "anchors": ["versions/patterns.py:TAG,VERSION,WILDCARD_SPECIFICATION,ORDER_SPECIFICATION,EQUAL_SPECIFICATION,CARET_SPECIFICATION,TILDE_SPECIFICATION", "versions/parsers.py:TagParser.parse,VersionParser.parse,SpecifierParser.parse_any,SpecifierParser.parse_all,SpecifierParser.parse_single"]}
{"id": "C97", "title": "The loops as written compute what the recursive definitions say", "statement": "VersionUnion.merge, written with a list that is appended to and whose last element is replaced, gives the result of merging recursively, whatever stable algorithm list.sort uses (there is exactly one stably sorted order of any list of items). The loops of VersionUnion.includes, intersects and intersection, written with two iterators, end after at most as many turns as there are items and give the recursive results. Padding by chain, repeat and take, counting zeros with a counter, splitting by translating several separators to one, first, last, set_last, flatten and all constructors of segments and unions behave as the rest of the model assumes; negation reverses the order of integers and infinities.", "quantifier": "all lists of sets and items, all stable sorting algorithms, all strings, all bounds on the number of turns", "why_tests_cant": "independence of the sorting algorithm and termination of the loops range over all inputs", "anchors": ["versions/version_sets.py:VersionUnion.merge,VersionUnion.includes,VersionUnion.intersects,VersionUnion.intersection_iterator,VersionUnion.of_unchecked,VersionUnion.of_iterable_unchecked", "versions/utils.py:first,last,set_last,next_or_none,contains_only_item,fix_to_length,flatten,count_leading_zeros", "versions/string.py:create_split_multiple,split_separators", "versions/segments/release.py:Release.create,Release.from_iterable,Release.from_parts,Release.into_parts,Release.set_parts", "versions/segments/local.py:Local.create,Local.from_iterable,Local.from_parts,Local.into_parts,Local.set_parts", "versions/types.py:Infinity.__neg__,NegativeInfinity.__neg__,is_any_infinity"]}
{"id": "C98", "title": "The versions accepted are the tidy ones PEP 440's expression accepts", "statement": "The expression for versions matches exactly the strings matched by the expression of PEP 440 (appendix B, without the white space around it) in which every '.', '-' and '_' is followed by a letter or a digit. parse_version returns a version exactly for those of these strings whose phase words are in small letters; with capitals in the words it raises ValueError, and for all other strings ParseVersionError. So nothing is accepted that the PEP refuses, and the only strings without white space and capitals that the PEP alone accepts have a mark left over, such as '1.0a.'.", "quantifier": "all strings", "why_tests_cant": "an equality of two infinite languages; tests compare finitely many strings", "anchors": ["versions/patterns.py:VERSION", "versions/parsers.py:VersionParser.parse", "versions/functions.py:parse_version", "versions/constants.py:PRE_PHASES,POST_PHASES,DEV_PHASES"]}
{"id": "C99", "title": "Sets see their versions only through comparisons", "statement": "Replacing every version in two sets by another, keeping their order, replaces the versions in the results of union, intersection, difference, symmetric_difference and complement likewise and changes no answer of contains, includes, intersects and ==: for example moving all epochs by the same amount, or spelling versions differently. With versions of a class derived from Version, all set operations, to_version_set, to_specifier, simplify, any_of and all_of give what they give for Version, in that class; parsing a set for a class is parsing a specifier for it and converting.", "quantifier": "all order-preserving functions on versions, all sets (canonical or not), all classes, all specifiers, all strings", "why_tests_cant": "quantifies over all functions on versions and all pairs of sets", "anchors": ["versions/version_sets.py:VersionEmpty,VersionItem,VersionRange,VersionPoint,VersionUnion,ItemsDifference", "versions/converters.py:specifier_to_version_set,version_set_to_specifier,simplify", "versions/functions.py:parse_version_set,parse_specifier"]}
{"id": "C100", "title": "Sets of versions of different classes", "statement": "For two canonical sets of versions of different classes, neither empty nor universal (these two belong to every class): they are never equal; union raises TypeError; intersection and difference raise TypeError unless the first set is a single version and the second consists of single versions, when they give the empty and the first set; symmetric_difference raises TypeError, or AttributeError on unions; includes never holds, and answers False instead of raising TypeError exactly if each item of the first set is a version or reaches less far without comparing; intersects holds exactly if the lowest items go on forever in the same direction, is False exactly for a version against versions, and raises TypeError otherwise. So alternatives for two classes can be matched but not converted to a set.", "quantifier": "all pairs of canonical proper sets of any two classes", "why_tests_cant": "exact outcomes over all shapes of unions and orders of comparison", "anchors": ["versions/version_sets.py:VersionItem.union,VersionItem.intersection,VersionItem.difference,VersionItem.includes,VersionItem.intersects,VersionUnion.merge,VersionUnion.includes,VersionUnion.intersects,VersionUnion.intersection,VersionUnion.difference,ItemsDifference.step,VersionSetProtocol.symmetric_difference", "versions/converters.py:specifier_to_version_set"]}
{"id": "C101", "title": "The caches keep classes of versions apart", "statement": "With versions of several classes derived from Version, calls made for one class never influence the answers for another: after any mixture of cached calls, each for some class and with the arguments passed in any way, a call for class T answers what it answers after only the calls for T, with versions of class T. So the caches are exactly as transparent as for one class. After calls with specifiers and sets of several classes at once, parse and parse_specifier still give their own answers, conversions give that of an equal specifier, and every version in the resulting set is of the class asked for.", "quantifier": "all histories of cached calls over all classes, all calls, all hash functions", "why_tests_cant": "quantifies over all call histories, interleavings of classes and hash functions", "anchors": ["versions/functions.py:parse_version,parse_specifier,parse_version_set", "versions/converters.py:specifier_to_version_set,version_set_to_specifier,simplify"]}
{"id": "C102", "title": "Segments updated and bumped by themselves", "statement": "Release.set_major, set_minor, set_micro and set_patch change one part and fill gaps with zeros; next_major, next_minor, next_micro and next_patch bump one part, zero the later ones and give a greater release if no part is negative. Release.next_at with an index from the end raises IndexError before the first part and ValueError at the last part (so next_at(-1) always fails), and otherwise bumps the part it names; versions that are stable do the same. Tag.next_phase goes from alpha to beta to rc with the given value and is None on all other phases, for every class of tags. The methods of versions give their release or epoch the result of the method of the segment.", "quantifier": "all releases, indices (positive or negative), tags of all classes, values", "why_tests_cant": "infinitely many releases and indices; negative indices are not tested at all", "anchors": ["versions/segments/release.py:Release.set_major,Release.set_at,Release.next_major,Release.next_at", "versions/segments/tags.py:Tag.next_phase", "versions/segments/epoch.py:Epoch.set_value,Epoch.next_value", "versions/version.py:Version.set_major,Version.next_major,Version.next_at,Version.set_epoch_value"]}
{"id": "C103", "title": "Groups of specifiers", "statement": "SpecifierAny and SpecifierAll raise TypeError unless given two specifiers or more; their methods of, of_specifiers and of_iterable take any number and never fail: none gives SpecifierNever or SpecifierAlways, one gives that specifier. The result accepts a version iff any (all) of the members do; order, repetitions and nesting of members change no answer, and all distributes over any and any over all.", "quantifier": "all lists of specifiers, nested to any depth, all versions", "why_tests_cant": "lists and trees of any size; laws between all pairs of groupings", "anchors": ["versions/specifiers.py:check_specifiers,SpecifierAny.of,SpecifierAny.of_specifiers,SpecifierAny.of_iterable,SpecifierAny.accepts,SpecifierAll.of,SpecifierAll.of_specifiers,SpecifierAll.of_iterable,SpecifierAll.accepts"]}
{"id": "C104", "title": "Objects that have a version", "statement": "is_versioned(x) is false exactly when get_version(x) raises AttributeError, that is when x has no __version__; the type of the attribute is not looked at, although the documentation says so. get_version(x, T) returns a version exactly when the attribute is a string of the version grammar in lower case, and then it is the version of class T read from it, whatever calls were made before; an attribute that is no string gives TypeError, a string outside the grammar ParseVersionError, and capital letters in phases ValueError.", "quantifier": "all objects by their __version__ attribute, all version classes, all earlier calls", "why_tests_cant": "all strings, kinds of attributes and histories", "anchors": ["versions/versioned.py:Versioned,is_versioned,has_version,get_version", "versions/functions.py:parse_version", "versions/parsers.py:VersionParser.parse"]}
{"id": "C105", "title": "Arguments that are not sets or versions", "statement": "Given an object of the library that is no version set, includes, intersects, intersection, union, difference and symmetric_difference of a range raise TypeError and of a point AttributeError; the empty set returns the object itself from union and symmetric_difference; a union takes it for the empty set, so includes is true, union gives the union back and difference gives the empty set; VersionUnion.of ignores it. contains, given an object that is no version, is true exactly for the universal set (unless the object is a range or point), false exactly for sets of points only, and raises AttributeError for ranges and points and TypeError for all others. The conversions between specifiers and sets raise TypeError for all other objects. Specifier.accepts, given an object that is no version, answers as for a version of another class (equality false, inequality true, an order raises), with AttributeError instead of TypeError when the object is a range or point.", "quantifier": "all canonical version sets, all specifiers made of valid versions, all objects of the library", "why_tests_cant": "all sets against all objects of eight kinds", "anchors": ["versions/version_sets.py:includes,intersects,intersection,union,difference,symmetric_difference,contains,extract,unexpected_version_set", "versions/converters.py:specifier_to_version_set,version_set_to_specifier,simplify", "versions/specifiers.py:accepts"]}
{"id": "C106", "title": "How the operators contain one another", "statement": "Of ^, ~, ~= and the two wildcards of equality, with the same version, one accepts all that another accepts exactly when its bound increases the same part of the release or an earlier one. ~= with a final version is >= with it and == with a wildcard for its last part. > and >= accept everything above an accepted version, < and <= everything below one, all operators but the negated ones everything between two accepted versions, and so do conjunctions of them; the negated ones reject everything between two rejected versions.", "quantifier": "all versions with nonnegative releases, all operators, all specifiers without alternatives", "why_tests_cant": "inclusion of infinite sets of versions, for all versions", "anchors": ["versions/operators.py:matches_caret,matches_tilde,matches_tilde_equal,matches_wildcard_equal,matches_wildcard_not_equal,next_caret_breaking,next_tilde_breaking,next_tilde_equal_breaking,next_wildcard_breaking", "versions/specifiers.py:accepts"]}
{"id": "C107", "title": "Empty ranges and ranges of one version", "statement": "For any two points or ranges that the constructors accept, also ranges without versions and closed ranges of one version: intersection and complement return exactly the right versions; union does unless it meets the clash of C23 (endless recursion) or loses the one version of a point beside an empty range at it; difference does unless an empty range closed above is taken from a range at its included minimum (endless recursion). includes never says yes wrongly, and says no wrongly only for a point asked about a closed range of one version or a range asked about an empty one; intersects never says no wrongly, and says yes wrongly only when one of the two is empty; is_empty is true exactly of the items without versions.", "quantifier": "all points, all ranges that VersionRange accepts, all versions", "why_tests_cant": "all pairs of ranges, with every degenerate shape, and membership of all versions", "anchors": ["versions/version_sets.py:VersionPoint.intersection,VersionPoint.union,VersionPoint.difference,VersionPoint.includes,VersionPoint.intersects,VersionRange.intersection,VersionRange.union,VersionRange.difference,VersionRange.complement,VersionRange.includes,VersionRange.intersects,VersionRange.is_empty"]}
{"id": "C108", "title": "Unions made without checks", "statement": "A VersionUnion may be constructed from any two or more points and ranges, in any order, overlapping or empty. contains is then still exact; VersionUnion.of (and union) still returns exactly the union of the versions if no item is empty, except that it recurses for ever in the clash of C23, and invents no version even if some are; includes, intersects and intersection never claim anything wrong; points and ranges asked whether they intersect such a union miss nothing, and a range includes such a union exactly when it contains all its versions.", "quantifier": "all lists of points and of ranges that VersionRange accepts, all versions", "why_tests_cant": "all lists of items of any length and order, and membership of all versions", "anchors": ["versions/version_sets.py:VersionUnion.of_unchecked,VersionUnion.of_iterable_unchecked,VersionUnion.merge,VersionUnion.of,VersionUnion.contains,VersionUnion.includes,VersionUnion.intersects,VersionUnion.intersection,VersionUnion.union,VersionRange.includes,VersionRange.intersects,VersionPoint.intersects"]}
{"id": "C109", "title": "The built-in operations the library rests on", "statement": "Tuples, lists and strings are compared at the first place where they differ, a proper beginning coming first; indices count from the start or, if negative, from the end, and others raise IndexError; slices are cut at the clamped bound; int() reads exactly the non-empty strings of digits by their decimal value and str() writes the shortest numeral; split(c) gives the only pieces without c that join to the string; split() the words between blanks; strip, strip(chars) and rstrip(chars) take all such characters from the ends and nothing else; replace('||', '|') halves runs of pipes, rounding up; comprehensions stop at their first failure; dictionaries find the first entry of a key.", "quantifier": "all sequences, strings, indices, integers, separators and functions", "why_tests_cant": "sequences and strings of any length, all integers, all characters", "anchors": ["versions/string.py:check_int,clear_whitespace,concat_comma,concat_dot,concat_pipes,split_comma,split_dot,split_pipes", "versions/segments/release.py:Release.get_at_unchecked,Release.set_at_unchecked", "versions/operators.py:wildcard_string"]}
{"id": "C110", "title": "What the messages of failed parsing name", "statement": "The message of an exception raised by parsing a tag is \"can not parse `s` to `C`\" with the whole string and the class if the string is no tag, and otherwise \"phase `p` is not allowed in `C`\" with the phase in its long form. That of parsing a version names the whole string and the class of versions, or the first word that is not in lower case (pre-release before post-release before development release) and the class of its tag. That of parsing a specifier is about its first bad clause, without whitespace: it names the clause, or the version in it if that ends in a capital X, or the first word of its version not in lower case, or says that `~=` can not be used with a single segment. No other message is possible.", "quantifier": "all strings, all classes of tags, all names of classes of versions", "why_tests_cant": "all strings; which of several faults is reported depends on their order, and that none is reported wrongly ranges over all strings", "anchors": ["versions/parsers.py:TagParser.parse,VersionParser.parse,SpecifierParser.parse,SpecifierParser.parse_single,SpecifierParser.try_parse_wildcard", "versions/segments/tags.py:Tag.check_phase", "versions/operators.py:Operator.validate"]}
{"id": "C111", "title": "How operations on sets may fail", "statement": "For sets made of items that the constructors accept - also unions made without checks, whose items are in any order, overlap or are empty - union (VersionUnion.of), intersection, difference and complement return a set of such items or raise RecursionError; symmetric_difference does too, and raises AttributeError exactly if called on a union. Converting to a specifier always succeeds for empty sets, points and ranges, and for unions succeeds or raises RecursionError. The checks inside (a range whose ends are in the wrong order, a difference that is not of two parts, a range without bounds to unwrap, a version asked of a range that is no point) never fail. If no item of a union is empty its complement exists and is in canonical form, and the union can be converted.", "quantifier": "all sets and lists of sets, of points and ranges accepted by the constructors, whether or not they are in order", "why_tests_cant": "an exception from an internal check can only be excluded by considering all ways in which unions made without checks can overlap", "anchors": ["versions/version_sets.py:VersionUnion.of,VersionUnion.union,VersionUnion.intersection,VersionUnion.difference,VersionUnion.complement,VersionRange.difference,VersionRange.difference_iterator,ItemsDifference", "versions/converters.py:version_set_to_specifier", "versions/converters_utils.py:try_range_unwrap,try_range_simple"]}
{"id": "C112", "title": "What refused constructors say", "statement": "Every constructor raises exactly one documented message for each kind of bad argument and for nothing else: ranges name infinities if an absent end is included, and otherwise ends in the wrong order if both are given; unions and groups of specifiers say whether none or one element was found; releases and local segments that they are empty; tags name the phase in its long form and the class; `~=` is refused exactly for releases of one part; asking a range for its version is refused exactly if it is not of one version; ItemsDifference says whether prepare was called twice or not at all, and raises nothing else of its own.", "quantifier": "all bounds and flags, all lists of items, specifiers and parts, all words and classes of tags, all operators and valid versions, all pairs of item lists", "why_tests_cant": "which of several faults is named, and that nothing else is refused, ranges over all arguments", "anchors": ["versions/version_sets.py:VersionRange.__attrs_post_init__,VersionRange.version,check_items,ItemsDifference.prepare,ItemsDifference.step,ItemsDifference.compute", "versions/specifiers.py:check_specifiers", "versions/segments/release.py:Release.check_parts", "versions/segments/local.py:Local.check_parts", "versions/segments/tags.py:Tag.check_phase", "versions/operators.py:Operator.validate"]}
{"id": "C113", "title": "How often operations compare versions", "statement": "Questions about sets (contains, ==, includes, intersects) compare bounds at most linearly often in the number of items of both sets; merging, union, intersection, difference, complement, symmetric difference and the conversion to a specifier do so apart from what sorting the items takes, unless the recursion does not end; converting a specifier and simplifying it takes at most quadratically many comparisons in the number of its members, apart from sorting. An operator answers with at most two comparisons, exactly one for ==, !=, <, <=, > and >=, and a specifier with at most two for each of its operators, asking none after the first that settles the answer.", "quantifier": "all sets, with items in any order, all versions, all specifiers however nested, and all bounds on the cost of sorting that are at most one comparison for two items and do not decrease", "why_tests_cant": "a bound on the number of comparisons ranges over sets and specifiers of every size; timing single cases does not separate linear from quadratic growth", "anchors": ["versions/version_sets.py:VersionRange,VersionPoint,VersionUnion,ItemsDifference", "versions/operators.py:translate_not_equal,translate_wildcard_equal,translate_wildcard_not_equal,matches_caret,matches_tilde,matches_tilde_equal,matches_wildcard_equal", "versions/converters.py:specifier_to_version_set,version_set_to_specifier,simplify", "versions/specifiers.py:accepts"]}
{"id": "C114", "title": "Simplified specifiers mention only what they must", "statement": "Every version in the result of simplify(s) is equal to one that each specifier accepting the same versions must mention: the version of one of its operators, or the first version such an operator excludes. The result has at most as many operators as the other specifier has <, <=, > and >= plus twice its other operators; so no specifier made only of <, <=, > and >= with the same meaning is shorter, and none made of ==, !=, <, <=, > and >= names fewer different versions.", "quantifier": "all specifiers that simplify returns for and all other specifiers, parsed or built, that accept the same versions", "why_tests_cant": "compares the result with every specifier of the same meaning, of which there are infinitely many", "anchors": ["versions/converters.py:simplify,version_set_to_specifier,specifier_to_version_set", "versions/specifiers.py:accepts"]}
{"id": "C115", "title": "Version sets answer questions about specifiers", "statement": "Let a and b be the version sets made from the specifiers s and u. Then b includes a exactly if u accepts every version that s accepts; a intersects b exactly if some version is accepted by both; a == b exactly if s and u answer alike for every version; a is empty, or universal, exactly if s accepts no version, or every version. If neither specifier mentions a version equal to 0.dev0, the versions that strings stand for are enough to tell, so that a string can be given for every version that matters; for <0.dev0 they are not.", "quantifier": "all specifiers that can be parsed or built from valid operators and that convert, all versions", "why_tests_cant": "each answer is a statement about all versions, and about all pairs of specifiers", "anchors": ["versions/version_sets.py:includes,intersects,is_empty,is_universal,__eq__", "versions/converters.py:specifier_to_version_set", "versions/specifiers.py:accepts"]}
{"id": "C116", "title": "Which versions have neighbours", "statement": "Strings stand for as many versions as one likes between any two versions, and for a higher one than any; 0.dev0 is the lowest. Among versions without local part every version v is directly followed by another one, v.next_dev() for development releases and v.next_post().next_dev() for others, and a version is directly preceded by another one exactly if it is such a result: a development release that is not the first one, or the first one of a post-release other than rev0. With local words that no string stands for, two versions can have none in between.", "quantifier": "all versions that can be written down, any number of versions in between", "why_tests_cant": "nothing in between is a statement about all versions, and so is being the lowest", "anchors": ["versions/version.py:next_dev,next_post,compare_key", "versions/segments/tags.py", "versions/segments/local.py", "versions/functions.py:parse_version"]}
{"id": "C117", "title": "Semantic versions and Semantic Versioning", "statement": "The string of a version is a string of Semantic Versioning 2.0.0 exactly if the version has no epoch, is_semantic() is true and its local part is ASCII; such a string has only one reading, and to_semantic() always gives one for a version without epoch and with ASCII local part. For versions that are neither post-releases nor development releases the order of versions without their local part is the precedence of Semantic Versioning. For others it is not: 1.0.0-dev.1 comes before 1.0.0-alpha.1 here and after it there, 1.0.0-post.1 comes after 1.0.0 here and before it there; and 1.0.0-alpha and 1.0.0-alpha.0 stand for one version here and differ there.", "quantifier": "all versions that can be written down, all semantic versions as given by the grammar of Semantic Versioning", "why_tests_cant": "the two orders and the two grammars agree on infinitely many versions of any length and size", "anchors": ["versions/version.py:is_semantic,to_semantic,to_string,compare_key", "versions/segments/release.py:is_semantic,to_semantic", "versions/segments/tags.py:to_string"]}
{"id": "C118", "title": "What an accepted version tells about later ones", "statement": "Let ^v accept w. Then ^v accepts everything that ^w accepts exactly if w has the same major part as v (it is no early version of the next major one) and w is not a final zero written with fewer than three parts and fewer than v. Let ~v accept w: ~v accepts everything that ~w accepts unless w is final with a single part and v has more. Let ~= v accept w, which has two parts or more: ~= v accepts everything that ~= w accepts exactly if w has no fewer parts than v and the same second to last part of v. In general, for any two of the operators with upper bound, it depends only on the part of the release that each bound increases. So two ^ specifiers with final versions of three parts or more, two ~ specifiers with versions of two parts or more, and two ~= specifiers with final versions of equally many parts either have no version in common, or one accepts all that the other accepts.", "quantifier": "all versions with natural numbers as release parts, all versions accepted", "why_tests_cant": "accepting everything that another specifier accepts is a statement about all versions", "anchors": ["versions/operators.py:next_caret_breaking,next_tilde_breaking,next_tilde_equal_breaking,matches_caret,matches_tilde,matches_tilde_equal", "versions/version.py:next_breaking"]}
{"id": "C119", "title": "Threads that share the caches", "statement": "Let any number of threads call parse_version, parse_specifier, parse_version_set, specifier_to_version_set, version_set_to_specifier and simplify, interrupted before any lookup in and any store into the dictionaries of lru_cache, by any schedule. Each thread gets one answer per call, in order, and none waits for another one: run alone from any moment it finishes. Versions and specifiers are parsed as without caches. A specifier (given or parsed) is converted like one equal to it that is made of operators some thread mentions; a text that does not parse raises its error. If equal versions under equal operators are written with the same precision in the calls of all threads, every answer compares equal to that of the function without caches, whatever the schedule. A single thread gets the answers of C45. Without that condition threads can get answers that no order of their calls gives: of ^0 and ^0.0.0, each thread gets its own set although the second call of either order gets the set of the first.", "quantifier": "all lists of threads with any calls, all schedules, all hash functions", "why_tests_cant": "races depend on the schedule, and neither schedules nor inputs can be enumerated", "anchors": ["versions/utils.py:cache", "versions/functions.py", "versions/converters.py"]}
{"id": "C120", "title": "What the predicates of versions say", "statement": "For a parsed version, is_pre_release, is_post_release, is_dev_release and is_local say whether the text has the respective segment. For every version: it is a dev-release exactly if it is below itself without the tag, a post-release exactly if it is above itself without the tag, and local exactly if it is above itself without the local segment; it is a pre-release exactly if it is below itself without the tag, or above it for dev-releases that are no post-releases; it is unstable exactly if it is below itself without the pre- and dev-release tags, and stable otherwise. It equals its release exactly if it is stable, no post-release and not local. Equal versions answer alike.", "quantifier": "all versions, all texts of the grammar", "why_tests_cant": "all combinations of tags with all values", "anchors": ["versions/version.py:is_pre_release,is_post_release,is_dev_release,is_local,is_unstable,is_stable"]}
{"id": "C121", "title": "Specifier strings parse back without their parentheses", "statement": "Removing every parenthesis from the short string of a parsed specifier gives a string that parses to that same specifier; removing them from its long string does so exactly when none of its versions is a release candidate. So two parsed specifiers whose short strings differ in parentheses only are the same.", "quantifier": "all strings the specifier parser accepts", "why_tests_cant": "all versions, operators and trees of clauses", "anchors": ["versions/specifiers.py:to_string", "versions/specifiers.py:to_short_string", "versions/operators.py:Operator.to_string", "versions/parsers.py:SpecifierParser"]}
{"id": "C122", "title": "Which specifiers strings stand for", "statement": "A specifier is what some string parses to exactly if it is a clause, two or more clauses joined by ',', or two or more of these joined by '||', where every version can be written, local parts occur only after =, == and !=, the release after ~= has two parts or more, and the number a wildcard stands for is 0. So trees of parsed specifiers are at most two groups deep. Specifiers made from version sets have the same shape or are SpecifierNever (for empty sets) or SpecifierAlways (for universal ones); a simplified parsed specifier is what some string parses to exactly if it is neither of these and no range in it ends at a local version.", "quantifier": "all specifiers, all canonical version sets, all strings", "why_tests_cant": "the claim is about every tree and every string, including that no string gives the others", "anchors": ["versions/parsers.py:SpecifierParser", "versions/converters.py:version_set_to_specifier", "versions/converters.py:simplify", "versions/specifiers.py:SpecifierAny", "versions/specifiers.py:SpecifierAll"]}
{"id": "C123", "title": "Which wildcards accept a version", "statement": "Of the specifiers '== e!p.*' whose prefix p has k parts, at most one accepts a given version: the one with the first k parts of its release, or, if it is a pre-release or development release of a release with only zeros after these, the one whose last part is one less. A version for which that part would be negative is accepted by none of them, and these are the only ones. A version that a prefix accepts is accepted by all shorter prefixes of it. '~= p.0' always, '~p' for one or two parts and '^p' where the last part is the one that breaks accept the same versions as '== p.*'.", "quantifier": "all prefixes of non-negative parts, all versions with non-negative release parts", "why_tests_cant": "all prefixes of every length and all versions; that no other prefix accepts a version", "anchors": ["versions/operators.py:matches_wildcard_equal", "versions/operators.py:next_wildcard_breaking", "versions/operators.py:matches_tilde", "versions/operators.py:matches_tilde_equal", "versions/operators.py:matches_caret"]}
{"id": "C124", "title": "Which bumps an operator still accepts", "statement": "Let one of ^, ~, ~= or the wildcards of equality have version w, and let its bound increase part j of the release. If w is final, the operator accepts w.next_at(i) exactly if i > j; so for w with three parts, ^w never accepts next_major, accepts next_minor iff the major part is not zero and next_micro iff the major or minor part is not zero, and ~w accepts next_micro only. If w is not final, the operator accepts next_at(i), which is the release of w, unless w is a development release of a post-release. It accepts next_post, accepts next_pre iff w is before its release, next_dev iff w has a development tag, and never next_epoch. If the bound is the release of w itself, it accepts no release bump, next_post iff w is a pre-release, next_pre iff w is before its release, and next_dev iff moreover w has a development tag.", "quantifier": "all versions with non-negative release parts, all operators with an upper bound", "why_tests_cant": "every version, precision, kind of tag and index", "anchors": ["versions/version.py:Version.next_at", "versions/version.py:Version.next_major", "versions/version.py:Version.next_minor", "versions/version.py:Version.next_micro", "versions/version.py:Version.next_post", "versions/version.py:Version.next_pre", "versions/version.py:Version.next_dev", "versions/operators.py:matches_caret", "versions/operators.py:matches_tilde"]}
{"id": "C125", "title": "Rearranging a specification string", "statement": "Take two specification strings s and s', as alternatives of clauses. If every alternative of s has all the clauses of some alternative of s', then s' accepts all that s accepts: adding alternatives or dropping clauses only widens. If this holds both ways (other orders, repetitions, alternatives that add a clause to another), they accept the same versions. If the same clauses occur, one parses iff the other does; if moreover both ways hold and s has a version set, then s' has an equal one or raises RecursionError, which may depend on the order of the alternatives; without pipes it never raises.", "quantifier": "all specification strings, all versions", "why_tests_cant": "every arrangement of any number of clauses and alternatives", "anchors": ["versions/functions.py:parse_specifier", "versions/functions.py:parse_version_set", "versions/specifiers.py:SpecifierAny.accepts", "versions/specifiers.py:SpecifierAll.accepts", "versions/converters.py:specifier_to_version_set"]}
{"id": "C126", "title": "How many versions tell two specifiers apart", "statement": "Whether a specifier accepts a version depends only on which side of its bounds (its operators' versions, and the first versions they exclude) the version lies; likewise membership in a version set. Hence for two parsed specifiers there are version strings, at most 2(m+n)+1 of them where m and n count one for each one-sided operator and two for any other, such that if the specifiers agree on these they agree on every version a string stands for. No list of versions does this for all specifiers. Equality, inclusion and overlap of two sets are likewise decided by at most 2k+1 versions, k being the number of bounds of both.", "quantifier": "all specification strings, all versions, all canonical sets", "why_tests_cant": "says which finite tests stand for all versions", "anchors": ["versions/functions.py:parse_specifier", "versions/specifiers.py:SpecifierOne.accepts", "versions/specifiers.py:SpecifierAny.accepts", "versions/version_sets.py:VersionRange.contains", "versions/version_sets.py:VersionUnion.includes"]}
{"id": "C127", "title": "Specifiers see epochs only through comparisons", "statement": "Replace the epoch of every version in a specifier, and of the version tested, by a strictly increasing function of it. Then accepts answers the same; converting to a version set, converting a set back and simplify fail with the same errors and otherwise give the same results with epochs replaced likewise. Bumping at any index and the first versions excluded by ^, ~, ~= and wildcards keep the epoch, whatever it is.", "quantifier": "all specifiers, nested ones included, all sets, all versions, all strictly increasing functions on epochs", "why_tests_cant": "every change of epochs at once, over all specifiers", "anchors": ["versions/specifiers.py:SpecifierOne.accepts", "versions/converters.py:specifier_to_version_set", "versions/converters.py:version_set_to_specifier", "versions/converters.py:simplify", "versions/operators.py:next_caret_breaking", "versions/operators.py:next_wildcard_breaking"]}
{"id": "C128", "title": "How specifiers treat local versions", "statement": "Let a specifier name no local versions. Then it treats all local versions of one version alike. An operator answers differently for a local version and the version without its local part exactly if the latter equals the operator's version and the operator is =, ==, !=, <= or >. So a specifier made of other operators never looks at local parts, and any specifier treats local versions of a version like that version unless one of these five operators names it.", "quantifier": "all operators and versions, all specification strings, all local parts", "why_tests_cant": "every local part of every version, against every specifier", "anchors": ["versions/operators.py:matches_equal", "versions/operators.py:matches_less_or_equal", "versions/operators.py:matches_greater", "versions/operators.py:matches_caret", "versions/specifiers.py:SpecifierOne.accepts", "versions/version.py:without_local"]}
{"id": "C129", "title": "How specifiers that name releases treat the versions around them", "statement": "Let all versions in a specifier be releases without tags and local parts. Then it treats all versions before one release (its development and pre-releases, with whatever follows) alike, and all versions after it (its post-releases, local versions and development releases of post-releases). They are treated like the release itself unless an operator starts or ends there. ^, ~, ~= and wildcards of equality accept the release they name with all versions after it but none before it, and of the first release they exclude exactly the versions before it, so that ^1.2 accepts 2.0a1 and not 1.2a1.", "quantifier": "all specification strings that name releases, all versions with nonnegative releases", "why_tests_cant": "unboundedly many tags and local parts at every release, against every specifier", "anchors": ["versions/operators.py:matches_caret", "versions/operators.py:matches_tilde", "versions/operators.py:matches_tilde_equal", "versions/operators.py:matches_wildcard_equal", "versions/specifiers.py:SpecifierOne.accepts", "versions/version.py:Version"]}
{"id": "C130", "title": "Specifiers see major numbers only through comparisons and steps", "statement": "Replacing the major numbers of all versions in a specifier, and of the version asked about, by others in the same order leaves the answer unchanged, errors included, if the replacement takes the successor of every major number named by ^, ~, ~= or a wildcard to the successor, and takes a major number named by ^ to zero exactly if it is zero. Then converting and simplifying also give the same up to the replacement. In particular the same number may be added to all major numbers of a parsed specifier if no ^ names or gets major number zero, so that years may be written with or without the century.", "quantifier": "all increasing replacements, all specifiers whose versions have a release, all versions; all specification strings for adding", "why_tests_cant": "a relation between runs on different inputs, for all replacements and specifiers", "anchors": ["versions/specifiers.py:SpecifierOne.accepts", "versions/operators.py:matches_caret", "versions/operators.py:matches_tilde", "versions/operators.py:matches_wildcard_equal", "versions/converters.py:specifier_to_version_set", "versions/segments/release.py:Release"]}
