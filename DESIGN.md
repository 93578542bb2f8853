# Formal model of `versions` in Rocq

The project (`/repo/versions`, pure Python) implements versions, specifiers and
version sets.  The model in `rocq/theories` transcribes the code function by
function as total computable Gallina functions; Python exceptions are values
(`Err e`).  Properties are in `properties.jsonl`, their status in
`MANIFEST.json`.

## Trusted base

* the Coq 8.16.1 kernel;
* whatever `Print Assumptions` lists beneath each theorem (the aim is
  "Closed under the global context" everywhere: only axiom-free parts of the
  standard library are used).  Loading the standard library also loads the
  module type `Coq.ssr.ssrunder.Under_rel`, whose declarations a listing of
  axioms over whole files shows; no theorem depends on them;
* the transcription itself (each definition cites the lines it models), and
  the reading of Python's primitives in `Py.v` (tuple/str/int comparison,
  slicing, `str.split`, `str.replace`, `str(int)`, `int(str)`; C109 shows
  that these mean what Python's documentation says), of `re`
  (the backtracking matchers in `Regex.v` and `Compile.v`; `Compile.v` also
  reads the pattern texts, so that the expressions of `Patterns.v` are not
  trusted but proved to be what the texts compile to, C94), of `list.sort` (some stable algorithm, C97) and
  of `functools.lru_cache` (association list keyed by `==` and hash class);
* that the steps counted in `Steps.v` (C96) are, up to a constant, an upper
  bound for those of Python's engine, which takes the same choices in the same
  order but skips some that cannot succeed;
* that `list.sort` compares two items once and does not compare fewer items
  more often, which the counts of C113 take as a parameter; what the caches of
  the converters compare is not counted there.

## Representation

* Python `int` → `Z`; `str` → list of code points (`list N`); lists/tuples → lists.
* A version is a record of epoch, release parts, optional pre/post/dev tag
  (phase string, value) and optional local parts (int or str).
* The compare key of `Version` is modelled as data with decidable Leibniz
  equality and a three-way comparison, so `v == w` is `key v = key w`.
* Version sets: `Empty`, `Item` (`Point`/`Range`), `Union` of a list of items.
* Recursion that Python does not bound structurally (union/merge, the
  two-pointer difference loop) gets fuel; running out is `Err RecursionError`
  or is proved impossible.

## Modelled / not modelled

Modelled: `segments/*`, `phases.py`, `version.py`, `operators.py`,
`version_sets.py`, `specifiers.py`, `converters*.py`, `patterns.py` (the
texts in `PatternText.v`, `re.compile` on them in `Compile.v`, and as regex ASTs
in `Patterns.v`), `parsers.py`, `string.py`, `functions.py`, `utils.py` caches; the dispatch of
`&`, `|`, `-`, `^`, `in`, `~` and `version.matches` over the set classes
(`Dispatch.v`); the rich comparison methods of `types.py` and of the attrs
classes with Python's reflected dispatch (`Rich.v`); `meta.py` as a function of
`sys.version_info`, what `main.py` prints, and
`representation.py` (`Meta.v`); `versioned.py` for items of any kind (`Versioned.v`); the methods of sets, `accepts` and the conversions on any object of the library (`Foreign.v`); which fields hashes depend on (`Hashes.v`, `Caches.v`); threads that share the caches (`Threads.v`); classes, `isinstance` guards,
`repr`, class methods and predicates of operators (`Classes.v`); `ItemsDifference` as an object (`Stepper.v`);
`int(str)` on any string, over any Unicode tables, and segments parsed on their own (`Ints.v`);
CPython's limit on the digits of numbers, for any limit (`Limits.v`), versions of
classes derived from `Version` that override nothing (`Typed.v`: comparing,
matching, specifiers, ranges and membership with versions of different classes;
`GenericSets.v`, `TypedSets.v`: the set operations and conversions; `TypedCaches.v`: the caches), the classes of
exceptions (`Errors.v`), the messages of failed parsing (`Messages.v`) and of refused constructors (`Refusals.v`), and the six comparison operators between any two
objects of the library (`Compare.v`).

`ProjectTests.v` evaluates the project's own tests, and the examples of its README and
docstrings, in the model: every expectation written there is an `Example` closed by
computation. This is evidence that the model is faithful, not part of any claim.

Not modelled: click's option parsing, other attrs and Enum internals, numeric hash values (the cache theorems hold for any),
the numeric value of the recursion limit,
arguments of the wrong Python type elsewhere.

Assumed of `typing_aliases`: `required` only marks protocol methods (were it
`abstractmethod`, no `VersionUnion` could be created, and the tests create
them).  Assumed of `named` (C110): `get_name` of a class is its `__name__`,
and `get_type_name` of an object that of its class.

## Proof plan by property

| id | what is modelled, how it is proved |
|----|------------------------------------|
| C01 | key comparison is a lawful three-way comparison (antisymmetric, transitive, `Eq` iff equal), lifted from components |
| C02, C03, C05 | stripped release compared with the zero-padded sequence, by induction on both lists |
| C04, C06 | case analysis on the tag part of the key against a separate ranking |
| C07–C09, C13 | parse of a flattened grammar tree is the tree's value; renderings are flattenings |
| C10–C12 | soundness and completeness of the regex matcher against a declarative grammar |
| C14–C16 | bump functions on lists of parts, order lemmas for releases |
| C17, C18 | case analysis on precision and leading zeros |
| C19, C20 | record and list reasoning |
| C21–C28, C30, C32, C51–C53 | items are half-open intervals over cuts (a key, before/after; ±∞); each operation is computed on cuts |
| C29, C31, C46 | invariants of merge and of the two-pointer loops; nested calls repeat from the second on (`DepthFacts.v`) |
| C33 | lexicographic order on optional bounds |
| C34–C36 | unfolding of operators against separately stated formulas |
| C37–C39 | induction on specifiers / items |
| C40–C44 | the specifier parser on rendered and arbitrary strings; exactness by the uniqueness of clauses (`SetExact.v`); which error, by listing the clauses in order (`SpecErrors.v`) |
| C45 | five dictionaries threaded through every call (`Caches.v`), lookup by hash and `==`, hash functions arbitrary; the invariant is that every stored value is that of an equal argument (`Histories.v`, `CacheFacts.v`); without collisions the dictionaries act like one list of operators and one of items, of which the first equal entry counts (`Remembered.v`, `RememberedFacts.v`, `ShelfFacts.v`) |
| C47–C50 | dispatch model, congruence of acceptance with key equality |
| C54 | every bound of a result occurs in an argument, followed through merge and the loops (`Provenance.v`) |
| C55 | equal sets have the same cuts; operations are determined by cuts (`EqualFacts.v`) |
| C56 | the bounds of each operator's translation, then C54 through the reductions; the leaves of converted sets by cases (`Normal.v`) |
| C57 | same versions accepted, so equal sets (C30), so equal specifiers (C55); conversely the results only compare, so equality preserves meaning (`Normal.v`) |
| C58, C59 | every operator on objects answers as the three-way comparison does, by cases on tuples, infinities and classes (`Rich.v`, `RichFacts.v`) |
| C60–C62 | four release levels by cases, same-length releases lexicographically; strings split at the first dash (`MetaFacts.v`) |
| C63–C66 | list reasoning on indices; words by cases; the grammar of tags (`AccessFacts.v`) |
| C67 | induction on values and specifiers, for any hash functions (`Hashes.v`, `HashFacts.v`) |
| C68–C69 | a version in every gap between cuts (`Density.v`), then orders of cuts (`RelationFacts.v`) |
| C70 | a table of separating versions, checked by computation (`OpFacts.v`) |
| C71 | first differing part of the release; cases on the lexicographic order (`BumpLeast.v`) |
| C72 | joined strings split where they were joined, by the grammar of specifications (`Compose.v`) |
| C73 | rows of clauses are read off the string by its pipes and commas; clauses by their first characters (`SetNames.v`) |
| C74 | unique reading of bracketed strings, by induction on the tree (`SpecNames.v`), cases on what a wildcard replaces (`SpecBlur.v`) |
| C75 | reductions stop at their first failure; unions by C51 (`Outcomes.v`) |
| C76–C78 | class names have no spaces, strings by C08, C66, C73, C74; the rest by cases (`ClassFacts.v`) |
| C79 | cuts at the bounds, and a version in every gap (`RangeShape.v`) |
| C80 | every continued step consumes an item (`StepperFacts.v`) |
| C81, C82 | PEP 440's grammar and order written down separately (`PepSpec.v`); keys against ranks by cases, strings part by part (`PepFacts.v`); where a word decides, by trichotomy of both orders (`PepOrderFacts.v`) |
| C83 | every step of a loop adds at most one item, by induction on the loops (`SizeFacts.v`) |
| C84, C85 | edges, where membership changes: a canonical set has no other bounds, so results have no more edges than their arguments (`EdgeFacts.v`) |
| C86, C87 | Python's `int` in full (`Ints.v`) against its documented grammar, by induction on digits; pieces are counted by separators (`IntFacts.v`) |
| C88 | padding appends; the stripped release is then a proper prefix (`PadFacts.v`) |
| C89 | PEP 440's clauses written down separately (`PepClauses.v`); local versions come right after the public one, and the parts before the last bound the release (`PepClauseFacts.v`) |
| C90 | the parsers and string methods with `int` and `str` limited to some digits (`Limits.v`); the numbers of a version string and of a version are listed (`LimitSpec.v`); trees are read as before unless a number is too long, and clauses for any version parser (`LimitFacts.v`, `LimitClauses.v`) |
| C91 | versions carry a class and comparing across classes gives up as attrs does (`Typed.v`); which operators a version of another class passes, fails or refuses (`TypedSpec.v`); the first clause that is not passed decides, and a specification that passes (fails) such versions accepts all but finitely many (only finitely many) of its own (`TypedFacts.v`) |
| C92 | the table of base classes (`Errors.v`) against the exact failures of C11, C44, C66 and C90 (`ErrorFacts.v`) |
| C93 | Python's choice between the methods of two operands, for every pair of classes (`Compare.v`); equal parts spelled out by kind (`CompareSpec.v`); comparable objects are compared by keys in total orders (`CompareFacts.v`) |
| C94, C95 | the f-strings of `patterns.py` quoted with their braces (`PatternText.v`), read by a parser for the part of Python's syntax they use and run by a second matcher (`Compile.v`); both matchers are run side by side, sequence by sequence (`PatternFacts.v`), and the languages and captures follow from those of C10 and C44 (`PatternTheorems.v`) |
| C96 | the matcher of `Regex.v` once more, counting its steps (`Steps.v`), shown to give the same answers; each expression is shown to keep a linear cost linear, given that what follows a number fails at once where the number was cut short (`StepFacts.v`); `(a+)+` is shown to be exponential by the same count |
| C97 | the loops with their mutable lists, iterators and counters (`Loops.v`), each shown equal to the recursive definition used elsewhere; uniqueness of the stable order (`LoopFacts.v`) |
| C98 | PEP 440's expression written down as a set of strings, without the model (`PepForm.v`); a mark left over by one tag can only belong to the next (`PepFormFacts.v`) |
| C99 | `version_sets.py` once more for any class of versions, where comparing may raise (`GenericSets.v`); every operation commutes with replacing versions if comparisons do (`GenericFacts.v`), which gives order-preserving functions on versions (`RenameFacts.v`) and classes derived from `Version` (`TypedSets.v`, `TypedSetFacts.v`) |
| C100 | the same code with versions of two classes: which comparison raises first, for every shape of the two sets (`MixedSpec.v`, `MixedFacts.v`) |
| C101 | the dictionaries of C45 with the class and the way of passing it in the keys (`TypedCaches.v`); the entries of one class are those of a history without the others, because only specifiers and sets without versions (`*` has one, the empty set has none) are shared and these convert alike in every class (`SeparateSpec.v`, `SeparateFacts.v`, `SeparateStates.v`, `SeparateBack.v`, `SeparateMain.v`); for mixed specifiers the invariant of C45 (`SeparateMixed.v`) |
| C102 | the methods of segments that versions call, and those of versions in terms of them (`SegmentMethods.v`); Python's indices from the end are translated to indices from the start (`SegmentMethodFacts.v`) |
| C103 | the constructors as written (`Groups.v`); everything else follows from what groups accept (`GroupFacts.v`) |
| C104 | what the attribute lookup finds, then the cached parser (`Versioned.v`); from C10, C11 and C101 (`VersionedFacts.v`) |
| C105 | the methods of sets and `accepts`, written again for any object (`Foreign.v`); by cases on the object, and on sets and versions equal to the methods of `VersionSets.v` (`ForeignFacts.v`) |
| C106 | where the bound of each operator lies (`NestSpec.v`); the order of bounds is the order of the first increased part, and the lower bound itself is the witness that an inclusion is strict (`NestFacts.v`) |
| C107 | where the operations on two constructible items depart from set theory (`LooseSpec.v`); all bounds as cuts of the line, without requiring that a range be inhabited (`LooseFacts.v`) |
| C108 | no order and no disjointness of the items assumed: merging sorts, so it is exact; the two-pointer loops are sound whatever the order (`RawFacts.v`) |
| C109 | what Python documents of the built-in operations of `Py.v`, as relations (`PythonSpec.v`); by induction on strings and lists (`PythonFacts.v`) |
| C110 | the parsers once more, carrying the texts of their exceptions (`Messages.v`); erasing these gives the parsers of the other rows, so that each kind of clause is analysed as for C44, and a clause has only one reading (`MessageFacts.v`) |
| C111 | sets of accepted items, in any order, as for C108; by following every branch of the operations: each range built again is accepted, and each union of touching items is one item unless it recurses for ever (`RawFailures.v`) |
| C112 | the constructors once more, carrying the texts of their exceptions (`Refusals.v`), compared with the texts as written in the property; by cases (`RefusalFacts.v`) |
| C113 | the set operations and conversions once more, counting every comparison of bounds (`Counts.v`, `ConvertCounts.v`, and answers of specifiers in `AcceptCounts.v`), shown to give the same answers; each loop consumes an item per round, and a union of two items recurses at most twice unless it recurses for ever (`CountFacts.v`, `MergeCounts.v`, `ConvertCountFacts.v`, `AcceptCountFacts.v`; measures in `CountSpec.v`) |
| C114 | the versions any specifier accepts are those of some canonical set whose bounds are bounds of its operators and which changes at most as often as they do (`NeedFacts.v`, by complement and intersection, which never fail); equal canonical sets have equal bounds (measure in `NeedSpec.v`) |
| C115 | conversion answers as the specifier does, and the bounds of the set come from its operators; canonical sets are told apart by the versions between their bounds (`DecideFacts.v`, statement in `DecideSpec.v`) |
| C116 | a local part can always be added between two versions (`SetVersions.v`); the least version above another by cases on the order of tags (`DenseFacts.v`, statement in `DenseSpec.v`) |
| C117 | strings of semantic versions cut at the first `-` and `+` (`SemVerFacts.v`); grammar and precedence of Semantic Versioning 2.0.0 written down on their own in `SemVerSpec.v` |
| C118 | an accepted version agrees with the named one up to the increased part, or is an early version of the bound; bounds compared part by part (`CarryFacts.v`, statement in `CarrySpec.v`) |
| C119 | calls as programs that stop before each lookup and each store (`Threads.v`); every program keeps the invariant of C45 whatever the dictionaries are when it goes on (`ThreadFacts.v`, statement in `ThreadSpec.v`). A lookup and a store are each one step, as in the C implementation of `lru_cache(None)` when `__eq__` and `__hash__` are not interrupted |
| C120 | the predicates against the grammar of C10 and against the order: a version compared with itself without the tag (`StableFacts.v`) |
| C121 | what remains of a specifier string without its parentheses is a specification in the sense of `Clauses.v`, clause by clause (`ParenFacts.v`) |
| C122 | shapes written down separately (`ShapeSpec.v`); a string for each by C121, no others by the grammar of C43 (`ShapeFacts.v`) |
| C123 | prefixes of releases (`PrefixSpec.v`), from the exact meaning of C36 and the places of C106 (`PrefixFacts.v`) |
| C124 | the shapes of bumps (C15, C16) against the bounds of C106 (`StayFacts.v`) |
| C125 | acceptance clause by clause (C43), sets compared as in C115, failures as in C37 (`ArrangeFacts.v`) |
| C126 | sets drawn from the bounds as in C114, versions in the gaps from density (`ProbeFacts.v`) |
| C127 | operators commute with a change of epochs, sets as in C99 (`CommuteFacts.v`, `EpochFacts.v`) |
| C128 | local versions lie directly above their version (C04), so on the same side of every other bound (`LocalFacts.v`) |
| C129 | early versions lie directly below their release and late ones directly above (C03), so on the same side of every other bound (`AroundFacts.v`) |
| C130 | as C127, with the first release number, which is always compared as it is (`MajorFacts.v`) |

Where the code refutes a property the refutation is proved
(`…_refuted : exists …`) and the strongest true restriction is proved with
suffix `_partial`.

## The log of wrong programs

`seeded/LOG.jsonl` has one line for every edit tried, read as follows.

- A theorem counts as failed when its proof stops working after the edit. This
  shows that the proof depends on the edited behaviour. It does not by itself
  show that the statement became false.
- Lines with `theorems_failed_by` come from builds that stopped at the first
  failing proofs. Their `theorems_failed` are the property theorems that use
  those proofs, found by following names. They were not each compiled, so the
  list may name too many or, as other files were not reached, too few.
- An empty `theorems_failed` means that no theorem was seen to fail. The `note`
  says why: the edit changes nothing that can be observed, a theorem was added
  afterwards (`theorems_tightened`), the build stopped at an example from the
  project's tests before reaching the theorems, or the edit was not tested,
  because it did not apply or did not build.
- The edits were made on the model as it was at the time. Lines were not
  repeated for later versions of it.
