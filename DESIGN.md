# Verification design for vara-feature

Source under study: `/repo` (C++17, se-sic/vara-feature), read as text only.
Model and proofs: `rocq/theories`, Coq 8.16.1.

## 1. Method

Every C++ routine in scope is transcribed into a small total Gallina function.
Three things are made explicit outcomes of the model instead of being assumed away:

* **Undefined behaviour** (dangling or null dereference, `back()`/`front()` on an
  empty container, failing `std::get`, violated library precondition) is a separate
  constructor (`Undef`, `None` at the outermost layer, `PUb`, depending on the file).
* **Divergence**: loops whose termination is not structural take fuel. Running out of
  fuel is its own outcome. Theorems either exclude it by proving that a computed
  amount of fuel suffices, or, where the C++ loop really may not stop, prove that no
  amount of fuel suffices.
* **Address and hash dependent orders** (iteration of `llvm::SmallPtrSet`,
  `llvm::StringMap`) are arguments: the theorems quantify over every order.

External components (Z3, libxml2, llvm::json) are not re-implemented. Where a property needs one, the theorem quantifies over every
component that satisfies a stated contract (for example: every satisfiability oracle
that answers correctly).

Each module consists of

* a model file (`*Model.v`) with definitions only; every definition carries the file
  and lines it models and the simplifications made,
* a specification file (`*Spec.v`) that does not use the model's helpers,
* proof files, and
* a property file (`Props_*.v`) that contains only the property theorems, each closed
  by `exact`, each followed by `Print Assumptions` and by an `Example` that shows a
  concrete non-trivial case meeting the hypotheses.

If the statement a user would expect is false of the faithful model, a theorem named
`..._refuted` proves the negation with a witness, and the exact statement that does
hold is proved next to it. Section 4 lists these findings.

## 2. Properties: what is modelled and how it is proved

### Constraint language (`Constraint.h`, `ConstraintParser.h`, `ConstraintBuilder.h`)

* **C01** AST, `toString`, lexer and parser modelled on character lists. Proof by
  induction on the tree: the lexer splits the printed text into the expected tokens,
  the parser consumes exactly these. The failing node kinds are shown to fail.
* **C02** Inductive grammar with precedence levels, independent of the parser.
  Soundness by fuel induction, completeness by induction on derivations, fuel bound by
  a measure on the token list.
* **C03** Induction on the text; the `munch` function is shown to make progress. The
  character classes are compared with listed letters and digits.
* **C04** The parser model returns `PUb` when it looks at an empty queue and `PFuel`
  when out of fuel; both are shown unreachable for every lexed non-empty text.
* **C05** Decimal value of a digit string as specification; LLVM's digit loop with its
  wrap-around overflow test as model. The `e` notation goes through `double` and is an
  argument of the model here (C66 for doubles).
* **C06, C07, C08** The builder is modelled with an explicit store of slots and
  pointers (head, frame stack), so that pointer validity is a proof obligation. The
  invariant relates the store to the right spine of the tree built so far. The result
  is compared with the grammar of C02.
* **C09** `clone` over a pointer-level tree with parent links; induction.
* **C10** `toHTML` transcribed; structural induction and a characterisation of
  well-escaped text.

### Step functions, source ranges, configurations

* **C11** Lexer and parser of `StepFunctionParser.h` as for C03/C04.
* **C12** The expansion loop of `Z3Solver::addFeature` with fuel, over an arbitrary
  `next` function on integers. Termination by the distance to `max`.
* **C13, C15** Direct transcription, order and equivalence laws.
* **C14** `rsplit`, `split`, `join` on strings as in `llvm::StringRef`.
* **C16** `StringRef::getAsInteger` with radix detection and overflow tests modulo
  2^64; specification as a relation between texts and integers.
* **C17, C18** Association map; JSON text functions are arguments with the contract
  that parsing inverts printing.

### Feature tree and transactions

Heap of nodes (parent pointer, ordered edge set, payload), several models in one heap.

* **C19** Iterator with explicit frontier stack and visited set; compared with the
  sorted pre-order of the abstract tree.
* **C20, C21** Ancestor traces as in `Feature::operator<`; order laws by comparison
  with positions in the pre-order; `std::upper_bound` as the halving loop.
* **C22** Inductive definition of nearest descendants.
* **C23 - C28** Tree invariant on the heap; each modification is proved to preserve it
  and to act on an abstract parent map as specified; refutations by explicit histories.
* **C29, C30** The commit loop over any list of modifications.
* **C31** Modifications of the clone only write nodes that did not exist before.
* **C32, C37** The builder is the queue of modifications it is in the code; result read
  off the abstract map.
* **C33** Transcription of the copy transaction.
* **C34** Constraint leaves are replaced by model references.
* **C35** The non-recursive bulk removal as the loop of partition and transaction it is
  in the code; `std::partition` as an arbitrary order within both parts. Invariant: what
  is left is the tree with the fully listed subtrees cut away.
* **C57** The recursive mode of the same function (`remove_listed`; without recursion it
  is proved equal to the function of C35). Sets of pointers are sorted lists by an
  arbitrary injective address; `std::set_intersection` is the merge loop, run on children
  in any order.
* **C36** `mergeSubtree` on top of the copy transaction. The two models live in one heap;
  the merged tree is specified by names, parents and groups, not by the traversal.

### Solver and configuration factory

* **C38, C39, C44** Terms with sorts (bool, int); ill-sorted construction is an error
  outcome as in Z3's C++ API. Evaluation under an interpretation; the valid
  configurations are specified on the feature tree.
* **C40 - C42** The solver state is a list of assertions plus the option mapping; `check`
  is an oracle argument with the contract "answers sat with a model of the assertions,
  or unsat if there is none". Termination by counting the finitely many assignments.
* **C43** Uses C19 (parents first).

### Input and output

* **C45** Transcription of the two detection functions on the heap model, run on a model
  as built by the builder; specified by names of children and stated exclusions.
* **C46** Writer and reader at the level of element trees. What libxml2 writes is assumed
  to be read back as the same elements. The proof goes through C52 (which calls a
  document stands for), C37 (what the calls build), C45 (which groups are recovered) and
  C01/C02 (constraints as text).
* **C47, C48** The line loop of the SXFM reader as a fold over lines and the replacement
  loop with fuel. Documents are specified as lists of entries with their printed form.
* **C49** Lists of flags per configuration; the map of the writer as sorted association
  list. The YAML printer and the CSV library are outside the model.
* **C50** List transcription.
* **C51** The default visitor of `ConstraintVisitor` as a fold over the tree.
* **C52** The document type (`XmlConstants.h`) as a validator, the reader as a fold over
  child elements. The meaning of a document is a relation on its options and
  constraints that does not mention the reader's state. How texts are trimmed and read
  as numbers is stated separately (`C52_texts_are_read`, `C52_readings_are_unique`).
  `C52_document_type` ties the validator to the text of `DtdRaw`: the text is copied into
  `DtdModel.v`, cut into words, and compared with the declarations as spelled by
  `DtdSpec.v` (the same for SXFM in `C64_document_type`).
* **C53, C54** No new model: clone (C32) and round trip (C46) against the valid
  assignments (C38) and the enumeration (C40). Hypotheses: a feature with a group has no
  other children and one group, numeric values are lists, and for C54 also that groups
  are alternatives of at least two mandatory binary features, mutually exclusive
  children are grouped, and listed values fit 32 bits. Dropping the list hypothesis or
  the one on alternatives is refuted.
* **C55** No new model: builder (C37), XML reader (C52), encoding (C38, C39) and
  enumeration (C40) composed. The configurations of a description are stated on names,
  edges, groups and constraints of the calls (`configures`), with no heap and no model.
  Hypotheses for the enumeration (`settled`): no feature of unknown kind, binary features
  below binary ones, no empty alternative, constraints of boolean type without xor.
* **C56** `main` of the generator as a function of the command line options and of what
  is found under the paths. The configurations are those of C55, the entries those of
  C49; the order of the flags is stated on the description (`listing`).
* **C58** No new model: SXFM reader (C47, C48), encoding and enumeration (C55) composed.
  The configurations are stated on the lines of the text (`SxfmConfigSpec.v`). Hypotheses
  beyond those of C47 for the enumeration: no empty alternative, no negation.
* **C59** `GraphvizModel.v` transcribes the writer and LLVM's `DOT::EscapeString`. The
  specification is a small syntax of statements and how they are laid out on lines,
  together with what statements draw a tree. How pointers are printed is a parameter.
  Strings between angle brackets are specified by balanced brackets as in the DOT
  language; the HTML grammar beyond tags and entities is not.
* **C60** `DumpModel.v` transcribes `toString` and `dump`; the order in which the hash map
  is iterated is a parameter. The specification is the content of the entries, stated on
  the tree, and their lines.
* **C61** No further model. `obtained` lists the ways in which a model comes about; the
  invariant is proved for every modification, failed ones included, and carried over to all
  of them. `informed` states on mentions and constraints what features list.
* **C62** `ViewerModel.v` is `main` of the viewer over an environment of files, programs
  and a temporary name. `tells` and `pictures` state the entries and the drawing on the
  description only; nodes are given by injective numbering of names. Uses C59, C60, C61 and
  the characterisation of read models behind C55.
* **C63** `rules` states what a valid configuration has to obey at each node of a tree, and
  `valid_rules` that together with the constraints this is `SolverSpec.valid`. The rest is
  about edited trees: outside of an edited feature node the rules stay (`edit_rules`), and
  constraints keep their values as long as the features they mention stay (`looks`). Uses
  the exact results of C24 to C28 and C34.
* **C64** `sxfm_document` describes the documents as written, `sxfm_fragment` the other
  declared elements on their own. `valid_iff` proves that the check against the document
  type (`sxfm_valid`, the content models as regular expressions over names) accepts exactly
  these; the walk over the elements then amounts to C47 and C58.
* **C65** Integers of at most 53 bits have an exact double (`of_int_exact`), addition and
  multiplication are exact on them (`add_exact`, `mul_exact`), and an integral decimal
  numeral is read exactly (`decimal_exact`). Ranges then follow by induction on the number
  of steps.
* **C66** The same for exponents. For other numbers the bits cut off by the rounding are
  followed through SpecFloat's shifts (`cut_rounds`), after the division for negative
  exponents as well.
* **C67** Like C37, but without a tree: `wired` says cell by cell which parent and edges a
  feature has, and is kept by groups and constraints (`wired_relations`). The consistency
  rules hold on it (`wired_consistent`), since they only look at parents and children. The
  failures follow by splitting the calls at the first wrong one (`first_bad`). A model that
  is a tree is rooted by following `reaches` through groups (`reaches_leads`); the other
  direction is C37.
* **C68** Every fold of the reader is done or refused if its steps are (`calm_fold`), and on
  well-written documents they are (`vm_calm`, with C04 for constraints). The converse goes
  through C52's `stands`. The calls of a document are `regular` and have no groups, so that
  the outcome follows from C67. For documents whose features are not all below the root the
  iteration is followed on the wiring of the built model (`LoopProofs.v`): it ends at the
  first feature called like the parent of the root, or runs off the end if there is none.
* **C69** Each call is a transaction with one modification, so what C23 to C27 say about
  modifications applies; a failed modification is the identity. For `addFeatures` the
  beginning that is added is specified by `fresh_start` (no name known or repeated, and the
  next one is), shown unique, and the invariant is kept along the list by induction.
* **C70** A Python call is translated to a builder call. `wants` says which builder call the
  caller asks for; what is built is that call with the features made mandatory, so C67 and
  C55 apply to it.
* **C71** `takes` says which values an option has by its texts alone. With the arithmetic of
  doubles the step function read is addition or multiplication on integers below 2^53 (C65),
  so the allowed values are the progression; C55 carries this to the valid configurations and
  the enumeration.
* **C72** The merged model (C36) holds the features of the first model as in a clone, and the new
  ones directly below their parents. `new_rules` states the rules of the new features in the
  second model. The extension selects a new feature exactly if the nearest shared feature above
  it is selected.
* **C73** `cycles n` is the relation "saved and loaded `n` times", each time with its own oracles.
  `model_back` of C46 is shown to be closed: what is read back is writable again, reading back
  twice is a way of reading back once, and any two models read back from one model are the same
  in the sense of `same_model`.
* **C74** Equality is compared with a relation on characters (the same, or the two cases of a letter
  of the alphabet). A Python set is the list of its elements; adding looks for an element with the
  same hash that is identical or equal. The comparison of features is the one of C20.
* **C75** No further model. `times h l e n` counts the constraints of a list that read `e`. The writer
  takes the implications of a feature from the list kept with the feature, which has a constraint
  once for every mention (`in_implies_times` of C61), so `a => a` is written twice.
* **C76** No further model. `looks_same` says when two models in two memories look the same to a user:
  names, tree, feature data, number of implications, exclusions (stated or by membership in a
  group), the other constraints in order. It is proved that the lists of implied and excluded options of
  every element, the sections and the order of the elements are then the same (`documents_same`).
  With C73 and C75 it follows that documents do not change any more.
* **C77** No further model. `defined_op` and `spares` state in terms of names, parents and mentions what a
  caller has to see to; both are proved to be necessary and sufficient for each of the twelve
  modifications (`defined_exactly`, `spares_exactly`). `made` lists the ways of making models with
  care, each with the conditions of the claim it comes from (C37, C52, C47, C46, C35, C32, C36), and lets other
  objects be created in between; `made_sound` combines these claims by induction. Since then the
  claims about saving and loading (C46, C54, C73, C75, C76) let the document be read with another
  iteration order than it was written with.
* **C78** No further model. `same_model` (C73) is independent of identities; two models related by it are transferred
  into each other as in C53 and C54 (`valid_transfer`, which no longer needs `neat`: that a feature has at
  most one group follows from `represents`), and `cycles_same` of C73 gives the claim about loading again,
  without the conditions C54 needs for the first time.
* **C79** No further model. `meant` and `idle` state by names what a call of a copy transaction means for the
  copy; `copy_calls` is an equivalence, so it also says which calls are undefined. `careful_copy` is
  `careful` of C77 for the calls of a copy transaction, and `made` of C77 contains the models
  handed out by such transactions.
* **C80** No further model. `plain` says what clones keep; the equivalence with `same_model` (C73) follows from
  `cloned` (C32) in both directions. `looks_same` of C76 now also relates features to their clones, which
  gives the claim about documents; steps and output strings do not matter there as they are not written.
* **C81** No further model. The model of a document (C44, C58) is shown to be `writable` (C46), and what comes
  back (`model_back`) to be `as_indented` by the entries with all groups `alternated`. The configurations
  of such a model are derived from its tree and its stated constraints, not from the trip.
* **C82** No further model. The calls made for the document (C46) are redone for documents without an option
  called root or base: the builder keeps its default root and the option without a parent becomes its child.
  `model_below` says what comes back. Its configurations are compared by name; `root_firm` (the root is not
  optional) holds of every `RootFeature`. For repetitions the model read back is shown to be `writable` (C46, C73).
* **C83** No further model. `below` puts a new root entry on top of the entries of the text; the model that C82 says
  comes back is shown to be indented like `below (alternated es)`, so the lemmas of C81 about indented models apply.
  `below_configuration` relates what both lists of entries state.
* **C84** No further model. With itself: every feature fits and no source range is gained, so what C36 says of the
  merged model is what C32 says of a clone. Again: the result of C36 is shown to meet the hypotheses of C36 and C72
  once more, with no name missing and every source range of the second model present.
* **C85** No further model. What strict mode asks of shared features is symmetric except for unknown kinds, so C36
  applies both ways round; both results are compared name by name, and C72 gives the configurations.
* **C86** No further model. Each pair of modifications is executed and the cells compared; for sequences, the second
  modification is shown to work in any memory with the same cells, because addresses of removed features are not used
  again in the model.
* **C87** No further model. The reordered calls are shown to describe the same declarations (C37); the two models are
  then compared name by name through what C37 says about each, and C55 gives the configurations.
* **C88** `MoveModel.v` runs programs over transaction variables on top of the transactions of C23; `MoveSpec.v` gives
  them a meaning in which a moved transaction has one owner. The proof keeps variables and owners in step
  (an owner of nothing is an open transaction with an empty queue), and counts the queued modifications for the rest.
  Assertions are switched on: a failed one is the outcome `None`.
  `C88_commits_report` states what commit returns: success exactly if every modification was made, ABORTED if the
  transaction is over.
* **C89** `ResultModel.v`: a result is a sum; how it is passed on follows the overload resolution of C++: for a variable
  that is not constant the constructor template of `Result` (line 101) is a better match than the copy constructor
  whenever the value type can be constructed from the result, which for bool and numbers goes through `operator bool`.
  Induction over the sequence of moves and copies; the statements about the solver use C41 and C42.
* **C90** no new model: `CountSpec.v` states the number by recursion over the tree (`ways` for a selected part, `idle` for
  an unselected one). The assignments valid for a part are counted by induction over the tree (`CountProofs.v`,
  `CountFinal.v`): parts with different names are independent, so their numbers multiply. C40 and C41 carry the number to
  what the solver enumerates.
* **C91** `ReuseModel.v`: all uses of one builder as a list, and a reader with its builder and the calls it has had. A
  builder is open, failed (its transactions are closed) or spent (its model is gone), and each state is followed through
  the list. Earlier calls can only make a reader refuse: a simulation over all functions of the reader. What a reader
  has had when it refuses is not computed; the statement holds for all it may have had.
* **C92** `IteratorModel.v`: iterators as pointers that are null or not, programs on them as lists of operations, and the
  range-based loop. The specification is a place in a list, as an inductive relation; programs and specification agree in
  both directions, so it is also stated when programs are undefined. The oracle is a function of the formulas asserted,
  so that the list does not depend on the program; an oracle that answers differently when asked twice is not covered.
* **C93** `SplitProofs.v`, `SplitFinal.v`: adding a constraint keeps what the solver needs and the options (only the lists
  of constraints at the features change); C63 gives the valid configurations. The lists for the constraint and for its
  opposite together are a list of all, as no configuration is in both: without division, what a constraint says depends
  on the options only.
* **C94** `SessionModel.v` runs programs over the calls of `SolverModel.v`; it is compared with the same program without
  questions. Additions look at the options only, never at the formulas, so both runs keep the same options and add the
  same formulas; the rest of the formulas excludes what was found, on the options there were then. The oracle has to be
  right only about the formulas of the last question. Z3 completes a model for options it has not seen; here the oracle
  gives a value to every name.
* **C95** `MergeManyModel.v` folds `merge_models`. `gathers` says what the result consists of without mentioning an order;
  the proof carries it from model to model: a model that fits every model merged before fits what was gathered from them,
  and conversely. Results in two orders gather the same models and so are alike. The root is supposed not to be optional,
  as the constructor of `RootFeature` ensures.
* **C96** `SaveModel.v` adds a disk of paths to `write_xml` and to the loading of `GeneratorModel.v`. What libxml reports
  is an input of each saving: not opened, failed midway with anything left in the file, or finished. Every call that
  writes is followed by `CHECK_RC`, so a failure midway always yields a negative result. Loading uses C46.
* **C97** `LengthModel.v` models the conversion of lengths: to the `unsigned` parameter, then to `int` with or without the
  assertion. The statements are about texts of any length and are proved without computing such texts.
* **C98** `TreeIterModel.v` runs programs on any number of the iterators of C19. The specification (`TreeIterSpec.v`) has a
  list of features to come for every iterator and no stack; a simulation relates both. That the list of a feature is a part without
  gaps of the lists of the features above it (`TreeIterSlices.v`) rests on the iteration not depending on what was visited
  elsewhere. Editing the model in between is not covered.

## 3. Trusted base

* Coq 8.16.1's kernel (`coqc`; re-checked with `coqchk`).
* The correspondence between `/repo` and the model files, which is by transcription and
  is documented definition by definition in the comments.
* `Print Assumptions` output per theorem: see section 5.

### Modelled code

| Code | Model file |
| --- | --- |
| `Constraint.h`, `Constraint.cpp` | `ConstraintModel.v`, `ConstraintHeapModel.v` |
| `ConstraintParser.h` | `ConstraintParserModel.v` (integers: `LlvmInt.v`) |
| `ConstraintBuilder.h` | `ConstraintBuilderModel.v` |
| `StepFunction.h`, `StepFunctionParser.h` | `StepFunctionModel.v` |
| `FeatureSourceRange.h` | `SourceRangeModel.v` |
| `Configuration.h`, `Configuration.cpp` | `ConfigurationModel.v` |
| `FeatureTreeNode.h`, `Relationship.h`, `Feature.h`, `Feature.cpp` (ordering), `FeatureModel.h` (iteration, containers), `OrderedFeatureVector.*` | `FeatureTreeModel.v` |
| `FeatureModel.cpp` (clone), `FeatureModelTransaction.*`, `FeatureModelBuilder.*` | `FeatureTransactionModel.v` |
| `FeatureModelTransaction.cpp:62-139` (recursive mode) | `FeatureRecursiveModel.v` |
| `Z3Solver.*`, `SolverFactory.cpp`, `ConfigurationFactory.h`, `Result.h` (`operator bool`) | `SolverModel.v` |
| `FeatureModelParser.cpp:20-447`, `XmlConstants.h` | `XmlModel.v` |
| `FeatureModelParser.cpp:449-879`, `SxfmConstants.h` | `SxfmModel.v` |
| `FeatureModelWriter.cpp` | `XmlWriterModel.v` |
| `SampleSetWriter.cpp`, `SampleSetParser.cpp` | `SampleModel.v` |
| `ConfigurationGenerator.cpp` (`main`), `FeatureModel.cpp:119-158` | `GeneratorModel.v` |
| `FeatureModel.h:484-648` (`GraphWriter`), LLVM's `DOT::EscapeString` | `GraphvizModel.v` |
| `Feature.cpp:7-49`, `Feature.h:178`, `FeatureModel.cpp:15-22` (`dump`) | `DumpModel.v` |
| `tools/fm-viewer/FeatureModelViewer.cpp:42-101` | `ViewerModel.v` |
| `lib/Feature/SxfmConstants.h:21-33`, `lib/Feature/FeatureModelParser.cpp:453-541` (documents) | `SxfmDocModel.v` |
| `StepFunction.h:29-55`, `ConstraintParser.h:278-301` on doubles | `DoubleModel.v` |
| `XmlConstants.h:55-101`, `SxfmConstants.h:21-33` (document types) | `DtdModel.v` |
| `FeatureModelTransaction.cpp:17-39, 141-160` (edit functions) | `EditCallModel.v` |
| `pybind_FeatureModelBuilder.cpp:16-90`, `pybind_FeatureModel.cpp:62-128` | `PyModel.v` |
| `Feature.h:50-52, 76-84`, `pybind_Feature.cpp:41-42, 86-88` | `FeatureEqModel.v` |
| `Result.h` | `ResultModel.v` |
| `FeatureModelTransaction.h:46-92, 976-1007, 1093-1095` (transactions as variables) | `MoveModel.v` |
| `FeatureModelBuilder.h:17-112`, `FeatureModelBuilder.cpp:9-32`, `FeatureModelParser.cpp:271-312, 393-405` (used repeatedly) | `ReuseModel.v` |
| `ConfigurationFactory.h:16-61` (iterators) | `IteratorModel.v` |
| `Z3Solver.cpp:9-192, 233-248`, `Solver.h:36-132` (additions between configurations) | `SessionModel.v` |
| `FeatureModelTransaction.cpp:162-170` (repeatedly) | `MergeManyModel.v` |
| `FeatureModelWriter.cpp:25-35`, `FeatureModel.cpp:119-158` (files) | `SaveModel.v` |
| `VariantUtil.h:22-29` | `LengthModel.v` |
| `FeatureModel.h:73-171` (iterators as values) | `TreeIterModel.v` |

### Not modelled

* libxml2's text syntax. Both readers start from the element tree.
* llvm::json and llvm::yaml text syntax, the CSV library, file system access.
* Z3 itself. The theorems quantify over every oracle that decides satisfiability.
* `std::pow`. Floating point arithmetic is that of Coq's `SpecFloat` (C65, C66); in the other
  properties step functions and the exponent notation of integers are arguments.
* Messages on stderr.
* The conversion of Python objects (only the builder and the edit functions of the bindings
  are modelled), command line parsing, memory exhaustion, 32-bit overflow
  of nesting counters.
* `SamplingMethods.cpp` (three constants computed by an external library).

### Assumptions on environment parameters

* `ord` (iteration order of pointer sets): any function that returns a permutation of
  its argument. `order` (iteration order of hash maps): likewise.
* `sci` (reading `1e3` through `double`): any function; C46 asks for non-negative
  results, which is what the conversion of a text without sign gives
  (`C66_never_negative`).
* `check` (Z3): returns a model of the asserted formulas, or none if there is none.
* JSON: parsing a printed object gives the object (C18; one instance is constructed).

## 4. Findings (refuted expectations)

Each item is behaviour of the code that a user would not expect. Names in parentheses are
theorems that prove it of the model. Items without a name are visible in the exact
statement of the property theorem.

### Constraints
* The empty text makes the constraint parser look at an empty token queue
  (`C04_empty_text_refuted`, `C03_empty_text_undefined`).
* `build()` called twice on one builder gives a second constraint without the features
  (`C06_second_build_loses_features`).
* `^` and `/` print to texts the parser rejects (`C01_xor_division_rejected`).
* `toHTML` escapes only the outermost operator (`C10_escaping_refuted`).
* A sign directly behind digits becomes part of the numeral, so `1-2` is read as the
  greatest 64-bit integer (`C05_glued_operator`).

### Step functions and configurations
* Unreadable numerals and the empty text are undefined in the step function parser
  (`C11_safe_refuted`).
* Expanding a range with a step function that has a fixed point never ends; without a
  step function a null pointer is called (`C12_termination_refuted`,
  `C12_fixed_point`, `C12_no_step_function`).
* "TRUE" is typed as the boolean false (`C16_typing`, `C16_example`).
* Iterating over a constant `Configuration` yields nothing (`C18_const_iteration_refuted`).

### Feature tree and transactions
* Comparing features of different trees or with equal names is not an order
  (`C20_equal_names_refuted`, `C20_other_trees_refuted`).
* `getChildren<Relationship>` also lists relationships of descendants
  (`C22_relationships_of_descendants`).
* `addChild` accepts a descendant as new parent and creates a cycle
  (`C23_cycles_are_accepted_refuted`).
* Removing the root is undefined (`C25_removing_the_root_is_undefined`).
* `removeRelationship` on a feature without a group takes the group of a descendant and
  leaves an edge to a freed node (`C26_takes_a_relationship_from_below`).
* A constraint whose addition failed stays in the model; a later clone then fails
  (C30, C34).
* A transaction that is neither committed nor aborted commits on destruction
  (`C30_destruction_commits`).
* Cloning fails for some hash orders if a non-root feature is called "root"
  (`C32_cloning_depends_on_the_hash_order_refuted`). Clones lose output strings, step
  functions and the source ranges of the root and of unknown features (C32).
* `addChild` in a copy transaction does nothing (`C33_adding_a_child_to_a_copy_does_nothing`).
* Bulk removal: an emptied group keeps its listed parent; listing the whole model is
  undefined; a repeated name ends the removal early and the rest is not reported
  (`C35_removing_everything_is_undefined`, `C35_repeated_names_refuted`).
* Recursive bulk removal looks for listed features among the children only, not below
  them as documented: a listed feature below a group of another one is used after it was
  freed, or ends the removal early (`C57_features_in_groups_refuted`,
  `C57_everything_is_removed_or_returned_refuted`). `std::set_intersection` is applied to
  children that are not sorted by address (`C57_unsorted_children_refuted`).
* Merging loses the source ranges of the first root, the groups and the constraints of
  the second model; different root names access the value of a failed commit
  (`C36_root_ranges_refuted`, `C36_unknown_root_is_undefined`).
* The builder accesses a null pointer for a group of an undeclared feature
  (`C37_groups_of_undeclared_names_are_undefined`).

### Solver
* Exclusive or is translated as "not both" (`C39_exclusive_or_refuted`).
* `ConfigurationFactory::isValid` answers true even if the model has no
  configuration (`C42_validity_test_refuted`, `C42_validity_test_always_true`).
* Negative values of numeric features come back as "(- n)" (C40). A binary child of a
  numeric parent raises a Z3 exception (C43).

### Input and output
* SXFM: a missing model name is undefined; "[1,-1]" is accepted as an or-group; a line
  that ends at the colon throws and a line left of the root fails an assertion
  (`C47_lines_left_of_the_root_are_undefined`, `C47_unmarked_lines`).
* SXFM: replacing identifiers may never end, and may turn one identifier into a feature
  of another one (`C48_replacement_may_not_terminate_refuted`,
  `C48_each_identifier_becomes_its_name_refuted`). Unreadable formulas are dropped.
* SXFM: the negation sign "~" is read as an arithmetic minus, and Z3 rejects the minus of
  a boolean. No document with a negated formula can be solved, such as the examples of
  the project itself (`C58_negated_formulas_are_not_solved`, `C58_negation_refuted`).
* GraphViz: labels are HTML-like strings, in which backslashes do not escape anything, but
  `DOT::EscapeString` is used for them; output strings are not escaped at all. Constraints
  such as `(a => b) & c` or outputs such as `-x <` unbalance the brackets of the label
  (`C59_nested_operators_refuted`, `C59_output_strings_refuted`).
* `Feature::toString`: "parent" skips groups, "children" does not look into them. A member
  of a group states a parent that does not list it (`C60_grouped_features_refuted`).
* Removing a feature leaves the constraints that mention it in the model, with pointers to
  the freed feature; `removeConstraintNonPreserve` is never called. Cloning, hence opening
  a copy transaction, and drawing then read freed memory
  (`C61_constraints_mention_features_of_the_model_refuted`).
* `fm-viewer --verify` ("Verify input and exit.") goes on to show the model
  (`C62_verify_exits_refuted`); as loading validates anyway, the option has no effect. With
  `-o` the result of `WriteGraph` is dropped, so a failure gives exit code 0
  (`C62_exit_codes_report_failures_refuted`).
* Removing the last member of a group leaves the empty group in the model, and no
  configuration with its parent is valid any more; below the root the model has no valid
  configuration at all (`C63_removals_keep_a_valid_configuration_refuted`).
* The document type of SXFM allows a `feature_model` without a name, for which the reader
  passes a null pointer to `std::string` (`C64_verified_documents_are_defined_refuted`).
  Since the name of the root element is not checked, `<data name="creator">me</data>` is
  read as a feature model (`C64_only_feature_models_are_read_refuted`).
* Ranges are stepped in `double`: `x + 1` from 2^53 on and `x + 0.5` from 1 on make the
  expansion run forever (`C65_plus_one_ends_refuted`, `C65_positive_summand_ends_refuted`),
  and a step beyond the range of `int64_t` is an undefined conversion even though both
  bounds are in range (`C65_doubling_defined_refuted`).
* The literal 9007199254740993e0 is one less than the same digits without exponent
  (`C66_exponent_zero_refuted`).
* `FeatureModelBuilder` accepts edges in a circle and edges to the root. The consistency
  checks pass, and the features of the circle cannot be reached from the root
  (`C67_built_models_are_trees_refuted`). A group of an undeclared feature dereferences a
  null pointer (`C67_groups_of_undeclared_features_are_undefined`).
* Valid XML documents with an empty constraint or a line beyond `int` run into undefined
  behaviour (`C68_bad_texts_are_refused_refuted`). Parents in a circle give a model with
  unreachable features (`C68_documents_give_trees_refuted`). If the root is below such a
  circle, `features()` ends at a feature that is not below the root; the iterator is
  incremented past the last feature and null is dereferenced
  (`C68_well_written_documents_are_defined_refuted`).
* **C69** `addFeatures` ignores everything after the first feature whose name is taken, and
  does not say so. `addRelationship` with a name that is not in the model dereferences a
  null pointer (`C69_unknown_names_are_ignored_refuted`), while the other functions ignore
  unknown names.
* **C70** `FeatureModelBuilder.make_binary_feature(name, opt)` of the Python bindings does not
  pass `opt` on, so every feature is mandatory and valid configurations are lost
  (`C70_optional_features_are_optional_refuted`). `emplace_relationship` with a text other
  than `OR` and `XOR` fails an assertion.
* **C71** Numbers with decimal places are not refused in numeric options. A bound like `0.5` is
  read as the largest integer, so that the range is empty and the model has no valid
  configurations; the list `0.5;1.5` is read as 0, 5, 1, 5
  (`C71_decimals_are_refused_refuted`).
* **C72** Merging drops the groups of the second model but not that their members are mandatory:
  the members of an alternative are then all mandatory, so that the merged model allows no
  configuration of the second model (`C72_alternatives_of_the_second_model_refuted`).
* **C74** Names of features are keys and case sensitive, but `==` and `hash` fold case: with a feature
  `Tls` and a child `TLS`, the two are equal, `Tls < TLS`, and `set()` in Python drops one of them
  (`C74_different_features_are_unequal_refuted`).
* **C75** `a => a` is registered twice with `a` and therefore written twice as an implied option of `a`;
  after `n` times of saving and loading it is there `2^n` times. `a => b` among the non-boolean
  constraints is written both as an implied option and as a non-boolean constraint, so every
  time adds a boolean copy
  (`C75_saving_and_loading_keeps_the_number_of_constraints_refuted`).
* **C76** Siblings are sorted by their names without regard to case, so options `a` and `A` under one
  parent are written in the order of their addresses
  (`C76_documents_are_reproducible_refuted`).
* **C77** Modifications with wrong arguments are not reported but have undefined behaviour, also for sound
  models: grouping a feature that does not exist, ungrouping one that is not grouped, removing the root,
  adding a constraint that points to a deleted feature (`C77_undefined_example`,
  `C77_modifications_are_always_defined_refuted`).
* **C79** In a copy transaction, a feature added below a feature that was removed from the copy before is
  silently added below the root, because the pointer is translated to null and null means the
  root (`C79_added_features_are_below_the_feature_asked_for_refuted`). A refused call does not stop the
  transaction, whereas a modify transaction stops (`C79_refused_calls_stop_the_transaction_refuted`).
* **C80** A child that is beside the group of its parent is in the group in the clone, so the clone is saved as a
  different document and excludes it from the members of the group
  (`C80_all_clones_are_saved_as_the_same_document_refuted`).
* **C81** Converting SXFM to XML turns or-groups into alternatives, so configurations are lost
  (`C81_or_groups_keep_their_configurations_refuted`), and hangs a root called neither root nor base below a new
  root (`C81_roots_are_kept_refuted`).
* **C82** Saving as XML does not record which feature is the root: a model whose root is called neither root nor
  base comes back with one more feature, and its former root is no longer a root (`model_below`).
* **C84** Merging is not repeatable in three ways. The source ranges of a shared root change with each merge, because
  the clone drops them and only ranges the first model lacks are added (`C84_root_ranges_again_refuted`). In strict
  mode, features of groups of the second model are added outside groups and refused the next time
  (`C84_strict_merging_again_refuted`). A feature added below a feature with alternatives hangs beside the group
  first, and the clone made by the next merge puts it into the group, so that configurations are lost
  (`C84_alternatives_again_refuted`).
* **C85** Which of two models is merged into the other matters even in strict mode: alternatives survive in the first
  model only (`C85_groups_either_way_refuted`). Outside strict mode the kind of a shared feature is the one of the
  first model (`C85_kinds_either_way_refuted`).
* **C86** `RemoveLocationFromFeature` after `AddLocationToFeature` removes an older range that differs in its revisions
  only (`C86_equal_ranges_are_undone_refuted`); a child moved away and back is the last one
  (`C86_moves_are_undone_refuted`); a root replaced and restored by name has lost its source ranges
  (`C86_replaced_roots_keep_their_ranges_refuted`).
* **C87** `addEdge` twice for the same child silently keeps the last parent (`C87_edges_in_any_order_refuted`);
  `makeFeature("root")` before `makeRoot("r")` makes `buildFeatureModel` return null, after it does not
  (`C87_names_in_any_order_refuted`).
* **C88** The defaulted move of a transaction leaves the pointer to the model in the source: destroying the source after
  the model is an access to freed memory (`C88_moved_from_needs_no_model_refuted`), committing it reports success
  (`C88_moved_from_is_aborted_refuted`). Move assignment drops the modifications of an open transaction that its
  destructor would have committed (`C88_assigning_commits_refuted`). `addRelationship`, `addConstraint`,
  `addLocation` and the removals do not assert an open transaction and are dropped when it is closed
  (`C88_late_calls_fail_refuted`).
* **C89** `Result<E, bool> B = A;` with a variable `A` does not copy: the forwarding constructor is chosen and stores
  `static_cast<bool>(A)`. An error becomes a success, and three configurations become one
  (`C89_copies_are_equal_refuted`, `C89_copies_keep_errors_refuted`).
* **C90** A numeric feature takes all its values even when the feature above it is not selected, and each is counted as
  a configuration (`C90_unselected_adds_nothing_refuted`).
* **C91** `buildFeatureModel` of a parser works once: the second call fails the assertion in `setName`
  (`C91_reading_twice_refuted`). Constraints added to a builder after building are dropped without notice
  (`C91_late_constraints_refuted`).
* **C92** Iterators over configurations are not independent: a second loop over the same iterable gets only the last
  configuration (`C92_second_loop_refuted`), an increment before the first dereferencing is lost
  (`C92_early_step_refuted`), and moving one iterator moves all (`C92_own_place_refuted`).
* **C93** Division by zero has any value Z3 likes, so a configuration with a zero divisor is valid with a constraint as well
  as with its negation (`C93_division_refuted`).
* **C94** A found configuration is excluded on the options known at that time: if options are added later, all their
  combinations with it are lost, up to UNSAT without a single configuration that has them
  (`C94_late_options_are_enumerated_refuted`). The current configuration fills them with values that may not be allowed
  (`C94_current_is_valid_refuted`).
* **C95** Parents are compared without regard to case but features are looked up with regard to it, so models with `a`
  and `A` can be merged, and a feature below both ends up below the one of the first model
  (`C95_cases_in_any_order_refuted`).
* **C96** `writeFeatureModel(Path)` returns `false` if the file cannot be opened, which is the number 0 and thus no failure
  for callers that follow the convention of `CHECK_RC`; the Python binding passes it on
  (`C96_only_negative_numbers_are_failures_refuted`).
* **C97** The parameter of `checkedNarrowingSignConversion` is `unsigned`, so a length of 4 GiB or more loses its upper bits
  before it is checked: of such a document only a part is read, even if assertions are enabled
  (`C97_assertions_notice_every_long_document_refuted`).
* **C98** `DFSIterator::operator==` compares the features and thus their lower-case names: iterators at different features
  whose names differ in case only are equal (`C98_equal_at_the_same_feature_whatever_the_names_refuted`). It does not
  compare what is to come: an iterator that started at a feature equals one that came there from the root, but not after
  another step of both (`C98_equal_iterators_from_anywhere_stay_equal_refuted`), although the class claims to be a
  forward iterator.
* Sample sets: entries are sorted by the text of their index, quotation marks in flags
  are not escaped (`C49_flags_with_quotes_refuted`). In tables any cell other than "0",
  including "false", selects a binary feature. Rows come in reverse order.
* Removing a source range that is not present is undefined (`C50_remove_undefined`).
* XML: an option without a name is taken for the root
  (`C52_nameless_options_become_the_root`); names of children are not trimmed; valid
  mixed constraints without attributes are undefined
  (`C52_valid_documents_are_defined_refuted`).
* XML round trip: or-groups come back as alternatives, list values go through 32 bits
  (`C46_groups_and_values_are_kept_refuted`). Roots not called root or base, output
  strings, step functions, member offsets and revision ranges are lost; groups with one
  or with optional members are not recovered; group members come back as stated
  exclusions (C46).
* The clone of a model with a stepped range has no valid configuration
  (`C53_clones_of_stepped_ranges_refuted`). After writing and reading a model with an
  or-group, configurations with two selected members are lost (`C54_or_groups_refuted`).
* The generator writes a value -2 as "(- 2)" behind the output string
  (`C56_values_are_written_as_numbers_refuted`); configurations that differ in options
  without output string only have equal entries
  (`C56_configurations_are_told_apart_refuted`). With an empty table it succeeds without
  writing a file (`C56_samples_are_written`).

## 5. Print Assumptions per theorem

Every property theorem is followed by `Print Assumptions` in its file. The answer is
"Closed under the global context" for all of them: no axioms, neither own ones nor ones
of the standard library, are used. (A listing of the constants of the loaded libraries
also shows declarations of `Coq.ssr.ssrunder`, which is loaded by the standard library's
`ZArith`/`Lia` files; no theorem depends on them.)
