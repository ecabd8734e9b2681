{"id": "C01", "title": "Printed constraints read back unchanged", "statement": "Printing a constraint and parsing the printed text gives back a constraint with the same meaning and shape (an Excludes node comes back as Implies of a Not) exactly when the constraint uses no xor, no division, no negative integer literal and only identifier-shaped names other than the keyword or; a constraint with an xor or a division is rejected by the parser.", "quantifier": "every constraint tree of any depth over any feature names and any 64-bit integers", "why_tests_cant": "The set of constraint trees is infinite; a test covers a handful of shapes and cannot show that no nesting loses a bracket, an operand order or an operator.", "anchors": ["include/vara/Feature/Constraint.h: Constraint::toString", "include/vara/Feature/ConstraintParser.h: ConstraintParser::buildConstraint, ConstraintLexer"]}
{"id": "C02", "title": "The constraint parser implements exactly the documented precedence grammar", "statement": "A text parses to a constraint if and only if its tokens are derivable in the grammar with the documented precedence levels (* over + - over comparisons over = != over & over | over => over <=>), all binary operators left associative and prefix operators binding strongest, and then the returned tree is the derived one; the grammar is unambiguous.", "quantifier": "every token sequence, hence every input text", "why_tests_cant": "Precedence and associativity interact over unboundedly long operator chains; pairs of operators tested in isolation do not establish three-operator interactions.", "anchors": ["include/vara/Feature/ConstraintParser.h: ConstraintParser::parseConstraint, parseBinaryConstraint, parseUnaryConstraint, calcPrecedence"]}
{"id": "C03", "title": "The constraint lexer is total and loses nothing", "statement": "For every non-empty text the lexer terminates, its tokens spell a prefix of the text in order, the last token is an end-of-file or error token and no earlier token is; without an error or an embedded end character the tokens spell the whole text. On the empty text it reads the back of an empty queue (undefined behaviour).", "quantifier": "every byte string", "why_tests_cant": "Byte strings are unbounded; the failing empty input is a single point that example based tests happened to skip.", "anchors": ["include/vara/Feature/ConstraintParser.h: ConstraintLexer::tokenize, munch"]}
{"id": "C04", "title": "The constraint parser never reads past its tokens and always stops", "statement": "For every non-empty text, parsing terminates and never inspects an empty token queue, whatever the bracket nesting or syntax error.", "quantifier": "every non-empty byte string, including malformed ones", "why_tests_cant": "Malformed inputs form an infinite set and the unsafe access only happens on the one that exhausts the queue.", "anchors": ["include/vara/Feature/ConstraintParser.h: ConstraintParser::peek, next, consume, parseConstraint"]}
{"id": "C05", "title": "Integer literals are read exactly or saturate", "statement": "A decimal literal in the 64-bit signed range is read as its exact value; a decimal literal too large reads as the largest representable integer. Text glued to a number with + or - is swallowed into the literal and turns it into the largest integer.", "quantifier": "every literal text accepted as a number token", "why_tests_cant": "The range boundary lies among 2^64 values and arbitrarily long literals.", "anchors": ["include/vara/Feature/ConstraintParser.h: ConstraintParser::parseInteger, ConstraintLexer::munchNumber"]}
{"id": "C06", "title": "The fluent constraint builder builds what the calls spell", "statement": "For every sequence of builder calls, build() returns a constraint if and only if the calls spell a well-formed expression (with each call of the closing operator bracketing everything built so far), and the returned tree is the one the precedence grammar assigns; otherwise it returns null. No call sequence makes the builder dereference an empty slot.", "quantifier": "every finite sequence of builder calls, including misuse", "why_tests_cant": "Call histories are unbounded and the builder keeps raw pointers into a tree under reconstruction.", "anchors": ["include/vara/Feature/ConstraintBuilder.h: ConstraintBuilder::binary, unary, constant, feature, openPar, closePar, operator(), build"]}
{"id": "C07", "title": "Builder and parser agree", "statement": "Spelling an expression through the fluent builder and parsing its textual token sequence give the same constraint tree or both fail.", "quantifier": "every sequence of calls whose operators have a textual spelling", "why_tests_cant": "Two independent implementations of the precedence rules have to coincide on infinitely many expressions.", "anchors": ["include/vara/Feature/ConstraintBuilder.h: ConstraintBuilder", "include/vara/Feature/ConstraintParser.h: ConstraintParser"]}
{"id": "C08", "title": "Builder misuse is sticky", "statement": "Once a call sequence contains a call at a position where it is not allowed (two operands in a row, operator without operand, unmatched closing bracket), every continuation of it makes build() return null.", "quantifier": "every call sequence and every continuation of it", "why_tests_cant": "Quantifies over all continuations of all prefixes.", "anchors": ["include/vara/Feature/ConstraintBuilder.h: ConstraintBuilder"]}
{"id": "C09", "title": "Cloning a constraint preserves it", "statement": "clone() returns a constraint with the same operators, operand order, literals and feature names, hence the same printed text, the same truth value under every assignment and the same set of referenced features; parent links of the copy point into the copy and getRoot() from any node of the copy returns the copy.", "quantifier": "every constraint tree and every node in it", "why_tests_cant": "Twenty-odd node classes each implement clone; a swapped operand in a nested position needs the right tree to be noticed.", "anchors": ["include/vara/Feature/Constraint.h: BinaryConstraint::clone, UnaryConstraint::clone", "lib/Feature/Constraint.cpp: PrimaryFeatureConstraint::clone"]}
{"id": "C10", "title": "HTML rendering escapes only the outermost operator", "statement": "toHTML() differs from toString() only by the escaping of the outermost operator; operators nested below are emitted raw, so the result is well-escaped exactly when no nested node is one whose operator contains <, > or &.", "quantifier": "every constraint tree", "why_tests_cant": "Depends on the nesting depth of the operator; existing tests use one operator.", "anchors": ["include/vara/Feature/Constraint.h: Constraint::toHTML"]}
{"id": "C11", "title": "Step function texts are accepted exactly when well formed", "statement": "A step function text is accepted if and only if its non-blank tokens are operand operator operand with exactly one name and one number; the resulting function applies the operator with the operands in the written order.", "quantifier": "every non-empty byte string", "why_tests_cant": "Infinite input space of malformed texts.", "anchors": ["include/vara/Feature/StepFunctionParser.h: StepFunctionLexer, StepFunctionParser", "include/vara/Feature/StepFunction.h: StepFunction::next"]}
{"id": "C12", "title": "Numeric ranges expand to exactly the reachable values", "statement": "Registering a numeric feature with a range enumerates exactly the values min, next(min), next(next(min)), ... not exceeding max, and terminates when every step strictly increases; a step function with a fixed point inside the range makes the registration run forever, and a missing step function is an invalid memory access.", "quantifier": "every range and every step function", "why_tests_cant": "Non-termination cannot be observed by a test and progress must hold at every reachable value.", "anchors": ["lib/Solver/Z3Solver.cpp: Z3Solver::addFeature"]}
{"id": "C13", "title": "Source locations are totally ordered", "statement": "The comparison of source locations is a strict total order compatible with equality (irreflexive, transitive, exactly one of <, ==, > holds).", "quantifier": "every pair and triple of locations", "why_tests_cant": "Order laws range over triples of unbounded values.", "anchors": ["include/vara/Feature/FeatureSourceRange.h: FeatureSourceLocation::operator<"]}
{"id": "C14", "title": "Member offsets round trip through text", "statement": "A text is accepted as member offset iff it contains :: and the part after the last :: is non-empty; printing an accepted member offset returns the original text, the class path has no component containing :: and equal member offsets are exactly those with equal texts.", "quantifier": "every byte string", "why_tests_cant": "Splitting at overlapping colons has infinitely many corner cases.", "anchors": ["include/vara/Feature/FeatureSourceRange.h: FeatureMemberOffset"]}
{"id": "C15", "title": "Source range equality is an equivalence that ignores revisions", "statement": "Equality of source ranges is reflexive, symmetric and transitive and holds iff category, path, start, end and member offset agree; the revision range is not compared.", "quantifier": "every pair and triple of source ranges", "why_tests_cant": "Equivalence laws range over all triples; which fields are compared has to be known for all field combinations.", "anchors": ["include/vara/Feature/FeatureSourceRange.h: FeatureSourceRange::operator=="]}
{"id": "C16", "title": "Configuration values are typed predictably and stably", "statement": "An option value is a boolean iff the text is true or false in any letter case, else an integer iff it is a whole integer literal (decimal, 0x, 0b, 0o or leading-zero octal) that fits 64 bits, else a string; re-reading the text returned for any option yields the same typed value. A boolean is true only for the exact lower-case text true.", "quantifier": "every byte string as value", "why_tests_cant": "Radix prefixes, overflow limits and letter cases form an infinite input space.", "anchors": ["include/vara/Configuration/Configuration.h: ConfigurationOption::convert, asString"]}
{"id": "C17", "title": "A configuration is a last-write-wins map", "statement": "After any sequence of sets, looking up a name returns the normalised text of the value most recently set for that name, or nothing if it was never set; names are case-sensitive.", "quantifier": "every sequence of sets and every name", "why_tests_cant": "Histories are unbounded.", "anchors": ["lib/Configuration/Configuration.cpp: Configuration::addConfigurationOption, setConfigurationOption, configurationOptionValue"]}
{"id": "C18", "title": "Dumped configurations load back", "statement": "Loading the dumped text of a configuration yields a configuration with the same options and typed values, and dumping that yields the same text; iterating a const configuration yields no option at all.", "quantifier": "every configuration", "why_tests_cant": "All option sets and values; relies on value normalisation being idempotent for every text.", "anchors": ["lib/Configuration/Configuration.cpp: Configuration::dumpToString, createConfigurationFromString", "include/vara/Configuration/Configuration.h: Configuration::begin"]}
{"id": "C19", "title": "Iterating a feature model visits every feature once, parents first", "statement": "Iterating over a feature model whose features form a tree under the root visits every feature exactly once, the root first, every feature after its parent and with its whole subtree contiguous, siblings in ascending order of their case-folded names.", "quantifier": "every feature model built by any history of accepted modifications that keeps it a tree", "why_tests_cant": "Tree shapes are unbounded and child sets are stored in address dependent order.", "anchors": ["include/vara/Feature/FeatureModel.h: FeatureModel::DFSIterator, features"]}
{"id": "C20", "title": "Feature comparison is the iteration order", "statement": "On the features of a tree in which siblings have distinct case-folded names, the comparison < is a strict total order and F < G holds iff iteration visits F before G. Without distinct sibling names, or across different trees, it is not a strict weak order.", "quantifier": "every tree-shaped feature model and every pair and triple of its features", "why_tests_cant": "Order laws range over all triples in all trees.", "anchors": ["lib/Feature/Feature.cpp: Feature::operator<"]}
{"id": "C21", "title": "Ordered feature vectors stay sorted", "statement": "After any sequence of inserts, an ordered feature vector contains exactly the inserted features with multiplicity, in ascending feature order.", "quantifier": "every tree-shaped model and every insertion sequence", "why_tests_cant": "Insertion orders grow factorially; binary search is only correct under an order invariant.", "anchors": ["include/vara/Feature/OrderedFeatureVector.h: OrderedFeatureVector::insert", "lib/Feature/Feature.cpp: Feature::operator<"]}
{"id": "C22", "title": "Typed child queries return the nearest nodes of that type", "statement": "Querying the children of a node for a node type returns exactly the descendants of that type with no node of that type strictly in between; in particular querying relationships also reports relationships that belong to descendant features.", "quantifier": "every tree and every node", "why_tests_cant": "Depends on arbitrarily deep mixtures of features and relationships.", "anchors": ["include/vara/Feature/FeatureTreeNode.h: FeatureTreeNode::getChildren"]}
{"id": "C23", "title": "Accepted modifications keep the model a tree", "statement": "Starting from a new model, after any history of modifications, successful or rejected, whose arguments belong to the model and that do not move a feature below itself, do not add a second root feature, do not move relationships, do not put a second relationship on a feature and do not ungroup a feature with relationships further below, every feature except the single root has exactly one parent and is listed exactly once among that parent's children, and following parents reaches the root; moving a feature below its own descendant is accepted and creates a detached cycle that the consistency check does not report.", "quantifier": "every finite history of modifications", "why_tests_cant": "An invariant over all histories.", "anchors": ["include/vara/Feature/FeatureModelTransaction.h: AddFeatureToModel, RemoveFeatureFromModel, AddRelationshipToModel, RemoveRelationshipFromModel, SetRoot, AddChild", "include/vara/Feature/FeatureModel.h: FeatureModelConsistencyChecker"]}
{"id": "C24", "title": "Adding a feature changes nothing else", "statement": "Adding a feature with a new name inserts it as last child of the given parent (or of the root) and leaves all other features, parents, relationships and constraints unchanged; adding one whose name exists fails with ALREADY_PRESENT and changes nothing.", "quantifier": "every model, every new feature, every parent", "why_tests_cant": "Frame conditions quantify over everything that must not change.", "anchors": ["include/vara/Feature/FeatureModelTransaction.h: AddFeatureToModel::operator()", "include/vara/Feature/FeatureModel.h: FeatureModel::addFeature"]}
{"id": "C25", "title": "Removing a feature removes exactly its subtree", "statement": "Removing a leaf removes exactly that feature; recursive removal removes exactly the feature and all its descendants together with their relationships; non-recursive removal of a feature with children fails with NON_LEAF_NODE and changes nothing; removing an absent name fails with MISSING_FEATURE. Constraints that mention a removed feature keep a dangling reference.", "quantifier": "every tree-shaped model, every feature except the root, both modes", "why_tests_cant": "Quantifies over all subtrees and all untouched parts.", "anchors": ["include/vara/Feature/FeatureModelTransaction.h: RemoveFeatureFromModel"]}
{"id": "C26", "title": "Grouping and ungrouping children are inverse", "statement": "Adding a relationship to a feature without relationship groups exactly its child features; removing the relationship afterwards restores every feature's parent and loses no feature. Removing from a feature that has no relationship of its own takes one from a descendant instead and leaves a dangling edge.", "quantifier": "every tree-shaped model and every parent feature", "why_tests_cant": "All child sets and all other parts of the tree.", "anchors": ["include/vara/Feature/FeatureModelTransaction.h: AddRelationshipToModel, RemoveRelationshipFromModel"]}
{"id": "C27", "title": "Replacing the root keeps the tree", "statement": "Setting a root with a fresh name removes the old root and makes its former children the children of the new root; setting a root with the name of the current one keeps the root; every other feature keeps its parent.", "quantifier": "every tree-shaped model and every new root name", "why_tests_cant": "Frame condition over all trees.", "anchors": ["include/vara/Feature/FeatureModelTransaction.h: SetRoot"]}
{"id": "C28", "title": "Moving a feature moves its subtree", "statement": "Adding an existing feature as child of another that is not below it detaches it from its old parent and attaches it, with its unchanged subtree, to the new one; all other parents are unchanged. A self edge is rejected with RECURSIVE_EDGE, an unknown child or parent name with MISSING_CHILD or MISSING_PARENT, without change.", "quantifier": "every tree-shaped model and every pair of features", "why_tests_cant": "All pairs in all trees.", "anchors": ["include/vara/Feature/FeatureModelTransaction.h: AddChild"]}
{"id": "C29", "title": "A successful commit yields a model that passes the consistency rules", "statement": "Whenever a commit succeeds the resulting model has a root, exactly one root feature, and every other feature has a parent feature and is among the children of its parent; otherwise no model is handed out (copy) or an error is returned (modify). A copy transaction that was committed or aborted hands out no model afterwards, whatever is called on it; its calls with a result report the error of the modification on the copy, and ERROR once it is closed.", "quantifier": "every model and every sequence of modifications", "why_tests_cant": "All histories.", "anchors": ["include/vara/Feature/FeatureModelTransaction.h: FeatureModelTransaction::commit", "include/vara/Feature/FeatureModel.h: EveryFeatureRequiresParent, CheckFeatureParentChildRelationShip, ExactlyOneRootNode"]}
{"id": "C30", "title": "A modify transaction runs a prefix", "statement": "Committing a modify transaction applies the queued modifications in order; if one fails the commit returns its error, exactly the modifications queued before it have taken effect and none after; there is no rollback. A second commit, and a commit after abort, returns ABORTED and changes nothing. Destroying an open transaction commits it; setting name, commit or path changes exactly that field.", "quantifier": "every queue of modifications and every failing position", "why_tests_cant": "All queues and failure points.", "anchors": ["include/vara/Feature/FeatureModelTransaction.h: FeatureModelModifyTransactionBase::commitImpl, FeatureModelTransaction::abort"]}
{"id": "C31", "title": "A copy transaction never touches the original", "statement": "Whatever is done in a copy transaction, committed or aborted, no feature, relationship, constraint or attribute of the original model changes.", "quantifier": "every model and every sequence of copy-transaction calls", "why_tests_cant": "Aliasing freedom over all histories.", "anchors": ["include/vara/Feature/FeatureModelTransaction.h: FeatureModelCopyTransactionBase", "lib/Feature/FeatureModel.cpp: FeatureModel::clone"]}
{"id": "C32", "title": "Cloning a model reproduces it except for documented losses", "statement": "Cloning a tree-shaped model whose constraints only mention its own features and in which no feature but the root is called root yields a model with the same name, commit, path, root name, feature names, parents and constraints, and the same kinds, optionality, values and source ranges of all binary and numeric features; output strings, step functions and the source ranges of the root and of unknown features are lost, and every child of a parent with a group ends up in that group. If another feature is called root, the result depends on the iteration order of the hash map.", "quantifier": "every such feature model and every hash order of its features", "why_tests_cant": "All trees and all internal iteration orders.", "anchors": ["lib/Feature/FeatureModel.cpp: FeatureModel::clone"]}
{"id": "C33", "title": "Adding a child inside a copy transaction has no effect", "statement": "In a copy transaction, adding an existing feature as child of another leaves the working copy unchanged and reports nothing.", "quantifier": "every model and every pair of features", "why_tests_cant": "A missing effect has to be shown for all states.", "anchors": ["include/vara/Feature/FeatureModelTransaction.h: FeatureModelCopyTransactionBase::addChildImpl"]}
{"id": "C34", "title": "Adding a constraint connects it to its features", "statement": "Adding a constraint whose names all exist makes every mention refer to the model's own feature of that name and registers the constraint with that feature exactly once per mention, classified as exclude or imply by its outermost operator; if a name is missing the error MISSING_FEATURE is returned but the constraint stays in the model.", "quantifier": "every model and every constraint", "why_tests_cant": "All constraint trees over all models.", "anchors": ["include/vara/Feature/FeatureModelTransaction.h: AddConstraintToModel", "lib/Feature/Feature.cpp: Feature::addConstraint"]}
{"id": "C35", "title": "Bulk removal reports what it did not remove", "statement": "Bulk removal in non-recursive mode removes exactly the listed features below which every node is a listed feature too, and returns exactly the remaining references; each returned feature still exists and still has a child (possibly an emptied group, which cannot be listed), and no other node disappears, moves or changes. Listing the whole model is undefined; naming a feature twice ends the removal early without returning what was skipped.", "quantifier": "every tree-shaped model and every list of distinct features", "why_tests_cant": "All lists and trees; an internal recursion whose rounds must reach a fixed point.", "anchors": ["lib/Feature/FeatureModelTransaction.cpp: removeFeatures, canBeDeletedRecursively"]}
{"id": "C36", "title": "Merging two models", "statement": "If every feature of the second model fits (a shared feature hangs below a parent of the same name up to case and, in strict mode, has the same kind, values, optionality and group membership; a new feature is not of unknown kind) and its root is a feature of the first model, merging yields a consistent tree with exactly the features of both: features, parents, groups and constraints of the first model as in a clone, shared features additionally with the source ranges only the second model has, new features directly below the feature named like their parent; groups and constraints of the second model are not taken over and the ranges of the first root are lost. If a feature does not fit the result is null; if the second root is unknown to the first model the value of a failed commit is accessed. The given models never change.", "quantifier": "every pair of tree-shaped models", "why_tests_cant": "All pairs of models.", "anchors": ["lib/Feature/FeatureModelTransaction.cpp: mergeFeatureModels, mergeSubtree, compareProperties"]}
{"id": "C37", "title": "The model builder builds the described tree", "statement": "Building from any sequence of feature, edge, root, attribute, constraint and relationship calls with distinct names whose last edges form a tree and with at most one group per parent yields a model with exactly these features, each attached to the parent of its last edge (or to the root), grouped as requested, with the requested constraints and attributes; duplicate names, edges from or to undeclared features and constraints over undeclared features yield null; a relationship on an undeclared feature dereferences a null pointer.", "quantifier": "every description and every order of calls", "why_tests_cant": "All descriptions and call orders.", "anchors": ["include/vara/Feature/FeatureModelBuilder.h: FeatureModelBuilder", "lib/Feature/FeatureModelBuilder.cpp: FeatureModelBuilder::buildFeatureModel"]}
{"id": "C38", "title": "The solver encoding has exactly the valid configurations as solutions", "statement": "For a tree-shaped model with boolean inner features and well-typed xor-free constraints, an assignment satisfies the generated formulas iff the root is selected, every selected feature's parent is selected, mandatory ungrouped children are selected with their parent, alternative groups have exactly one and or-groups at least one selected child under a selected parent, numeric features have an allowed value and all constraints hold.", "quantifier": "every such model and every assignment", "why_tests_cant": "All models and all assignments.", "anchors": ["lib/Solver/Z3Solver.cpp: Z3Solver::addFeature, setBinaryFeatureConstraints, addRelationship, addConstraint, SolverConstraintVisitor", "lib/Solver/SolverFactory.cpp: applyModelOnSolver"]}
{"id": "C39", "title": "Xor is encoded as not-both", "statement": "The formula generated for an xor constraint holds iff its operands are not both true; it therefore accepts the assignment with both operands false, which exclusive or rejects.", "quantifier": "every pair of operand formulas and every assignment", "why_tests_cant": "The encoding must be compared on all assignments.", "anchors": ["lib/Solver/Z3Solver.cpp: SolverConstraintVisitor::visit"]}
{"id": "C40", "title": "Enumeration lists every configuration exactly once", "statement": "Given a correct satisfiability oracle, enumerating all configurations terminates and returns every satisfying assignment of the model's options exactly once and nothing else; on an unsatisfiable model it returns the error UNSAT.", "quantifier": "every set of registered options and formulas and every correct oracle", "why_tests_cant": "The oracle may answer with any model at any step.", "anchors": ["include/vara/Solver/ConfigurationFactory.h: ConfigurationFactory::getAllConfigs", "lib/Solver/Z3Solver.cpp: getNextConfiguration, excludeCurrentConfiguration"]}
{"id": "C41", "title": "Bounded enumeration returns the requested number", "statement": "Requesting N configurations returns min(N, number of valid configurations) distinct valid configurations, and none for N = 0 or an unsatisfiable model; counting returns the exact number of valid configurations for satisfiable models.", "quantifier": "every model, every N, every correct oracle", "why_tests_cant": "All counts and oracle choices.", "anchors": ["include/vara/Solver/ConfigurationFactory.h: getNConfigs, getNumConfigs"]}
{"id": "C42", "title": "The validity test does not test validity", "statement": "The factory's validity test answers true for every model, including models without any valid configuration; the solver's own query answers according to satisfiability when asked before enumeration and fails with ILLEGAL_STATE afterwards.", "quantifier": "every model and every correct oracle", "why_tests_cant": "A constant answer is indistinguishable from a right one on satisfiable test models.", "anchors": ["include/vara/Solver/ConfigurationFactory.h: ConfigurationFactory::isValid", "include/vara/Utils/Result.h: Result::operator bool", "lib/Solver/Z3Solver.cpp: hasValidConfigurations"]}
{"id": "C43", "title": "Loading a model registers every feature with the solver", "statement": "Loading a tree-shaped model without unknown features into a new solver registers each feature exactly once without error; registering a feature twice fails with ALREADY_PRESENT, registering one before its parent fails with PARENT_NOT_PRESENT, and both leave the solver unchanged.", "quantifier": "every such model", "why_tests_cant": "Depends on iteration order for all trees.", "anchors": ["lib/Solver/SolverFactory.cpp: applyModelOnSolver", "lib/Solver/Z3Solver.cpp: addFeature"]}
{"id": "C44", "title": "Mixed constraints apply as declared", "statement": "A mixed constraint with requirement none holds iff its (optionally negated) expression holds with selected features counting 1 and deselected 0; with requirement all it additionally holds whenever one of its boolean features is deselected.", "quantifier": "every expression and every assignment", "why_tests_cant": "All expressions and assignments.", "anchors": ["lib/Solver/Z3Solver.cpp: addMixedConstraint, SolverConstraintVisitor"]}
{"id": "C45", "title": "XML alternatives are recovered", "statement": "After reading XML, a feature's children become an alternative group iff there are at least two children, all children are non-optional features and each excludes every other one.", "quantifier": "every feature tree and every set of exclude constraints", "why_tests_cant": "All trees and constraint sets.", "anchors": ["lib/Feature/FeatureModelParser.cpp: FeatureModelXmlParser::detectXMLAlternatives, detectExclude"]}
{"id": "C46", "title": "XML written by the library reads back", "statement": "A model whose root and only whose root is called root or base, without features of unknown kind and with names, values, positions and constraints in the range of the format, can be written; the document is valid and is read, and the model read has the same name, path, commit, feature names, parents, optionality and source ranges. Exactly those features have a group afterwards, an alternative one, whose children, at least two, are mandatory and pairwise in one group or exclusive; so or-groups come back as alternatives. All values of a list but the last go through a 32-bit integer; output strings, step functions, member offsets and revision ranges are lost. Implications and exclusions between two features become boolean constraints, group members become exclusions, and the other constraints come back in order with exclusions spelled as implications.", "quantifier": "every such model, every iteration order of the hash sets", "why_tests_cant": "All models.", "anchors": ["lib/Feature/FeatureModelWriter.cpp: FeatureModelXmlWriter", "lib/Feature/FeatureModelParser.cpp: FeatureModelXmlParser"]}
{"id": "C47", "title": "SXFM trees are read as indented", "statement": "For an SXFM feature tree whose lines never indent by more than one level at once and stay right of the first one, every line becomes a feature whose parent is the closest preceding line with one level less, with r, m, o and group members mapped to root, mandatory, optional and grouped features, and each group line yields exactly one alternative or or-relationship according to its cardinality; the model of the whole document carries its name and exactly these features. A line that is over-indented, as deep as the root, without a colon, with an unknown mark or with a name containing its own identifier is rejected; a line ending at the colon throws and a line left of the root fails an assertion.", "quantifier": "every list of lines, every indentation string, every iteration order of the open groups", "why_tests_cant": "All indentation profiles.", "anchors": ["lib/Feature/FeatureModelParser.cpp: FeatureModelSxfmParser::parseFeatureTree, parseVm, buildFeatureModel, extractCardinality"]}
{"id": "C48", "title": "SXFM identifier substitution", "statement": "Replacing identifiers by names in SXFM constraints leaves no occurrence of the identifier whenever it ends, and ends if the name is shorter than the identifier or lacks one of its characters; a text of formulas whose replacements do not disturb each other is read as exactly the constraints stated, over the features the identifiers stand for. There are documents accepted by the reader for which the replacement never terminates, and ones where an identifier becomes another feature than its own.", "quantifier": "every constraint text and every identifier map", "why_tests_cant": "Non-termination is not observable by tests.", "anchors": ["lib/Feature/FeatureModelParser.cpp: FeatureModelSxfmParser::parseConstraints"]}
{"id": "C49", "title": "Sample sets are written completely", "statement": "Writing sample configurations emits one entry per configuration holding exactly the output flags of the selected features with non-empty output string in iteration order, numeric flags carrying the value; entries are ordered by the text of their index, and flags free of quotation marks can be recovered from them. Reading a table yields one configuration per row, last row first, with exactly the features of the model that have a column set, binary ones to false only if the cell is 0.", "quantifier": "every model and every list of configurations or rows", "why_tests_cant": "All configuration lists.", "anchors": ["lib/Sampling/SampleSetWriter.cpp: SampleSetWriter::writeConfigurations", "lib/Sampling/SampleSetParser.cpp: SampleSetParser::readConfigurations"]}
{"id": "C50", "title": "Source range bookkeeping of a feature", "statement": "Adding a location appends it, removing one erases its first occurrence and keeps all others in order, updating one replaces its first occurrence in place and reports whether it was there; removing a location that is not present is undefined behaviour.", "quantifier": "every feature and every sequence of location updates", "why_tests_cant": "Histories are unbounded and the failing removal depends on them.", "anchors": ["lib/Feature/Feature.cpp: Feature::removeLocation, updateLocation", "include/vara/Feature/Feature.h: Feature::addLocation"]}
{"id": "C51", "title": "The default visitor visits every leaf once", "statement": "Visiting a constraint with a visitor that overrides only the leaf visits calls them once per leaf, left to right, regardless of the results of earlier visits, and returns true exactly if all of them returned true.", "quantifier": "every constraint tree and every stateful leaf visitor", "why_tests_cant": "A short-circuiting visitor is only noticed on trees where an early leaf returns false and a later leaf has an effect.", "anchors": ["include/vara/Feature/Constraint.h: ConstraintVisitor::visit"]}
{"id": "C52", "title": "XML documents are read as written", "statement": "Reading a document that satisfies the document type makes exactly the builder calls the document stands for: per option its edges, exclusions and implications in document order, then a binary or numeric feature with the name, optionality, output string, values, step function and source ranges of its elements (an option called root or base, or without a name, names the root); per constraint element the parsed constraint in its class. The model is as described by these calls, plus the alternatives found. Documents that violate the document type or give an option two different parents are refused; mixed constraints without attributes are undefined behaviour.", "quantifier": "every tree of elements, every hash iteration order", "why_tests_cant": "All documents; interplay of duplicate parent declarations, optional elements and defaults.", "anchors": ["lib/Feature/FeatureModelParser.cpp: FeatureModelXmlParser", "lib/Feature/XmlConstants.h: DtdRaw"]}
{"id": "C53", "title": "Clones have the same valid configurations", "statement": "For a model whose constraints mention its features, whose grouped features have one group with all their children in it and whose numeric features have lists of values, the clone exists and has exactly the valid configurations of the model, and enumerating the configurations of the clone yields the same configurations as enumerating those of the model. For ranges with step functions this fails: the clone then has no valid configuration at all.", "quantifier": "every such model, every assignment, every iteration order, every solver deciding the formulas", "why_tests_cant": "Both sides range over all models and all configurations.", "anchors": ["lib/Feature/FeatureModel.cpp: FeatureModel::clone", "lib/Solver/Z3Solver.cpp: Z3Solver", "include/vara/Solver/ConfigurationFactory.h: ConfigurationFactory::getAllConfigs"]}
{"id": "C54", "title": "Writing and reading XML keeps the valid configurations", "statement": "For a model in the range of the XML format whose groups are alternatives of at least two mandatory binary features, whose mutually exclusive children are grouped, and whose numeric features have lists of values of 32 bits (the last value of 64), the model read from the written document has exactly the valid configurations of the model written, and both are enumerated alike. With or-groups this fails: configurations selecting two members are lost.", "quantifier": "every such model, every assignment, every iteration order, every solver deciding the formulas", "why_tests_cant": "Both sides range over all models and all configurations.", "anchors": ["lib/Feature/FeatureModelWriter.cpp: FeatureModelXmlWriter", "lib/Feature/FeatureModelParser.cpp: FeatureModelXmlParser", "lib/Solver/Z3Solver.cpp: Z3Solver"]}
{"id": "C55", "title": "Models have the configurations of their description", "statement": "A sequence of builder calls or an XML document describes a set of configurations: the root is selected; a selected option has a selected parent; a mandatory option outside a group is selected with its parent; of an alternative group of a selected option exactly one member is selected, of an or-group at least one; numeric options have allowed values; the constraints hold. The groups are those requested by the calls, and in a document the options all of whose children (at least two) are mandatory and exclude each other. If the description is a tree over declared names, the model is built or read, its valid configurations are exactly the described ones, and enumerating them with the solver lists each of them exactly once, or reports that there is none.", "quantifier": "every such sequence of calls and every such document, every assignment, every iteration order, every solver deciding the formulas", "why_tests_cant": "Reading, building, encoding and enumerating are each tested on fixed files; the end-to-end meaning ranges over all documents and all assignments.", "anchors": ["include/vara/Feature/FeatureModelBuilder.h: FeatureModelBuilder", "lib/Feature/FeatureModelParser.cpp: FeatureModelXmlParser::buildFeatureModel", "lib/Solver/Z3Solver.cpp: Z3Solver", "include/vara/Solver/ConfigurationFactory.h: ConfigurationFactory::getAllConfigs"]}
{"id": "C56", "title": "The configuration generator writes exactly the described configurations", "statement": "Run on a valid XML document that describes a tree, the generator reports failure if the description has no configuration; otherwise it writes exactly one entry per configuration of the description, holding the output strings of the selected options (followed by the value for numeric ones) for all options in the order of the tree, parents first and siblings by lower-case name. In sample mode it writes one entry per row of the table, last row first. Missing or invalid documents, a missing table name, the unimplemented sampling mode and an unwritable output file end with exit code 1 and no output; exit code 0 implies a valid document. Two expectations fail: negative values are not written as numbers, and different configurations may have equal entries.", "quantifier": "every command line, file system contents, document, table, iteration order, and solver deciding the formulas", "why_tests_cant": "The tool is run on two fixed files without looking at the output.", "anchors": ["tools/config-generator/ConfigurationGenerator.cpp: main", "lib/Feature/FeatureModel.cpp: loadFeatureModel", "lib/Feature/FeatureModel.cpp: verifyFeatureModel", "lib/Sampling/SampleSetWriter.cpp: SampleSetWriter::writeConfigurations", "lib/Sampling/SampleSetParser.cpp: SampleSetParser::readConfigurations"]}
{"id": "C57", "title": "Recursive bulk removal removes what is listed with everything below", "statement": "In recursive mode bulk removal removes exactly the listed features and everything below them and returns exactly the references that mean no feature, if no listed feature is below another one. If listed features are below others this still holds when everything in between is listed too and children are iterated in the order of their addresses. Otherwise the behaviour may be undefined or listed features may be neither removed nor returned; removing the root is undefined.", "quantifier": "every model that is a tree, list of references to distinct features or unknown names, iteration order, partition order and assignment of addresses", "why_tests_cant": "The tests list features of one small tree in which every listed feature below another one is its only child.", "anchors": ["lib/Feature/FeatureModelTransaction.cpp: removeFeatures", "lib/Feature/FeatureModelTransaction.cpp: canBeDeletedRecursively", "include/vara/Feature/FeatureModelTransaction.h: RemoveFeatureFromModel", "include/vara/Feature/FeatureTreeNode.h: FeatureTreeNode::getChildren"]}
{"id": "C58", "title": "SXFM documents have the configurations they state", "statement": "The valid configurations of the model read from an SXFM document are the selections that obey its tree lines and formulas: the root is selected, children only with their parents, mandatory children and groups with theirs, exactly one or at least one member of a selected group, and every formula holds. Loaded into a solver they are enumerated, each exactly once. If a formula contains the negation sign, the model has no valid configuration at all and cannot be loaded into a solver.", "quantifier": "every well-formed document, fresh heap, iteration order and deciding satisfiability oracle", "why_tests_cant": "The tests check the structure of models read from SXFM files, but never hand one to a solver.", "anchors": ["lib/Feature/FeatureModelParser.cpp: FeatureModelSxfmParser::parseFeatureModel", "include/vara/Feature/ConstraintParser.h: ConstraintLexer", "lib/Solver/Z3Solver.cpp: Z3SolverConstraintVisitor::visit(UnaryConstraint)", "lib/Solver/SolverFactory.cpp: SolverFactory::applyModelOnSolver"]}
{"id": "C59", "title": "DOT drawings show the tree", "statement": "The DOT text of a feature model declares every node once with its shape and label, has exactly one edge from every parent to every child whose head tells optional from mandatory features and relationships, and encloses what is below a node in one cluster that puts its children on a rank. Two models with the same text have the same drawing, if output strings have no line breaks. The label of a feature lists its name, output string, registered constraints and locations, and is a well-formed HTML-like string if names, outputs and locations have no markup characters and constraints none below their outermost operator; otherwise it need not be.", "quantifier": "every heap and model that is a tree, every title, and every injective printing of pointers", "why_tests_cant": "There are no tests of the GraphViz output.", "anchors": ["include/vara/Feature/FeatureModel.h: GraphWriter<FeatureModel *>::writeGraph", "include/vara/Feature/FeatureModel.h: GraphWriter<FeatureModel *>::emitCluster", "include/vara/Feature/FeatureModel.h: GraphWriter<FeatureModel *>::buildFeatureLabel"]}
{"id": "C60", "title": "Printed models list their features", "statement": "The text a feature model is printed as has one entry for every feature of the model and nothing else. The entry states the name, whether the feature is optional, its locations, the nearest feature above it, the features directly below it, and the range or list of values of a numeric feature. Two models with the same text have the same entries, if names have neither line breaks nor commas and locations neither line breaks nor closing brackets. A feature listed as a child states the listing feature as its parent; the converse holds if there are no groups and fails for features in groups.", "quantifier": "every heap and model that is a tree, and every order in which the hash map of features is iterated", "why_tests_cant": "There are no tests of the printed form; the order of the entries differs between runs.", "anchors": ["lib/Feature/FeatureModel.cpp: FeatureModel::dump", "lib/Feature/Feature.cpp: Feature::toString", "lib/Feature/Feature.cpp: NumericFeature::toString"]}
{"id": "C61", "title": "Features know the constraints that mention them", "statement": "In every model obtained by the constructor, the builder, the XML or the SXFM reader, by cloning, by merging, or from such a model by committed or failed transactions of either mode and by bulk removal, the constraints() of a feature are the constraints of the model that mention it, once for every mention; excludes() and implications() are the excluding and implying constraints among them, again once for every mention. No modification removes a constraint: after the removal of a feature the constraints that mention it still point to it, and cloning or drawing the model then reads freed memory. A model whose constraints mention only features of the model can be drawn.", "quantifier": "every way in which a model is obtained, including any sequence of transactions and failures, and every iteration order", "why_tests_cant": "A stale or missing registration only shows in operations that use it, such as detecting alternatives or drawing, and reading freed memory usually goes unnoticed.", "anchors": ["include/vara/Feature/Feature.h: Feature::addConstraint", "include/vara/Feature/FeatureModelTransaction.h: AddConstraintToModel", "include/vara/Feature/FeatureModelTransaction.h: RemoveFeatureFromModel"]}
{"id": "C62", "title": "fm-viewer shows what the document describes", "statement": "For a document that describes a model, fm-viewer --dump prints one entry for every described feature, with its name, whether it is optional, its locations and values, its described parent and, unless they form an alternative group, its described children. Without --dump it writes a graph with a box for every described feature and an ellipse for every alternative group; the box has name, flag, every constraint of the document that mentions the feature, once for every mention, and the locations; the edges lead from parents to their ungrouped children and otherwise through the ellipse, with a head that tells whether the feature is optional. The graph goes to the file given with -o, else to a temporary file that is handed to the given viewer if it is found and to the default viewer otherwise. Nothing else is written. Missing, malformed and invalid files give exit code 1. --verify makes no difference: it does not exit after verifying. If the file given with -o cannot be written, the exit code is 0.", "quantifier": "every document that describes a model, every command line, file system and iteration order", "why_tests_cant": "Graphs are looked at by humans; there are no tests of the tool, and a missing edge, a row too few or a wrong exit code is easily overlooked.", "anchors": ["tools/fm-viewer/FeatureModelViewer.cpp: main", "include/vara/Feature/FeatureModel.h: GraphTraits, DOTGraphTraits", "lib/Feature/FeatureModel.cpp: FeatureModel::dump", "lib/Feature/FeatureModelParser.cpp: FeatureModelXmlParser"]}
{"id": "C63", "title": "Modifications change the valid configurations as they should", "statement": "In a model whose constraints mention features of the model: adding a feature keeps exactly the valid configurations that obey the rules of the new feature towards its parent and its values, so every valid configuration extends to a new binary feature, deselected if it is optional or its parent is not selected, selected if its parent is. Removing a feature below a feature lifts exactly the rules of the removed part; wherever the feature is, valid configurations without it stay valid. Moving a feature exchanges exactly its rules towards its parent; grouping children exchanges their being mandatory for the rule of the group, and ungrouping them restores the valid configurations; a new root takes the place of the old one; an added constraint has to hold and nothing else changes; locations, name, commit and path do not matter. A removal can leave a model without any valid configuration although no constraint is involved: the emptied group stays.", "quantifier": "every feature model that is a tree, every modification with defined behaviour and every assignment", "why_tests_cant": "Whether a modification changes the configuration space correctly only shows when all configurations before and after are compared; the tests compare single links.", "anchors": ["include/vara/Feature/FeatureModelTransaction.h: AddFeatureToModel, RemoveFeatureFromModel, AddRelationshipToModel, RemoveRelationshipFromModel, AddChild, SetRoot, AddConstraintToModel", "lib/Feature/FeatureModelTransaction.cpp"]}
{"id": "C64", "title": "SXFM documents are verified and read as their elements say", "statement": "A well-formed document is verified exactly if it is a feature_model with optional meta data, one feature_tree and optional constraints in this order, with only the declared attributes, or one of the parts of such a document on its own. What such a document says is determined, and meta data make no difference. If it has a name, the model has that name, the features as indented (with the given indentation, or tabs), the groups and the constraints of the formulas, and its enumerated configurations are the stated ones. Documents of another shape are refused. A document without a name is verified but reading it is undefined; a verified document can be refused because of its tree; and a data element on its own is read as a model that has only a root.", "quantifier": "every document (element tree), heap, iteration order of the hash maps and decision procedure that decides", "why_tests_cant": "The tests read a handful of files; a check that accepts or rejects one shape too many, or a section that is skipped or read in the wrong order, goes unnoticed there.", "anchors": ["lib/Feature/SxfmConstants.h: DtdRaw", "lib/Feature/FeatureModelParser.cpp: FeatureModelSxfmParser::{buildFeatureModel,parseDoc,parseVm}", "include/vara/Feature/FeatureModelParser.h: FeatureModelSxfmParser::verifyFeatureModel"]}
{"id": "C65", "title": "Step functions on doubles step through the integers", "statement": "A step function of a feature name, an operator and a numeral with integral value (7, 7.0, 007) computes on doubles what the operation gives on integers, whenever operands and result have at most 53 bits; for powers if std::pow is exact on such integers. A range with a positive summand z expands to exactly lo, lo+z, lo+2z, \u2026 up to the upper bound, one with a factor z > 1 and a positive lower bound to exactly lo, lo*z, lo*z^2, \u2026, listed from the largest, and the encoding for the solver allows exactly these values. Outside of these bounds the expectation fails: with x + 1 from 2^53 on, and with x + 0.5 from 1 on, the expansion never ends, and x * 2 up to 2^62 converts a double that is out of range.", "quantifier": "every step function text of the shape, integer, range and std::pow", "why_tests_cant": "The tests step a few small numbers; truncation, an operand that is rounded or an operation in float precision appear only for other values.", "anchors": ["include/vara/Feature/StepFunction.h: StepFunction::operator()", "include/vara/Feature/StepFunctionParser.h: parseNumber", "include/vara/Feature/Feature.h: NumericFeature"]}
{"id": "C66", "title": "Integers with an exponent are the number written", "statement": "A literal of digits, e or E, an optional sign and digits stands for the integer it denotes if that has at most 53 bits, with positive and negative exponents. Numbers that do not fit into 64 bits become the largest integer; for every other number the value is at most three quarters off below 2^53 and at most 512 off above. The value is never negative, so that every expressible constraint is read back from its text. Not true is that an exponent of zero leaves the value as it is (9007199254740993e0).", "quantifier": "every such literal and constraint", "why_tests_cant": "The tests contain a handful of literals with small exponents; rounding, the saturation and the handling of negative exponents are not exercised.", "anchors": ["include/vara/Feature/ConstraintParser.h: ConstraintParser::parseInteger", "include/vara/Feature/Constraint.h: IntegerConstant"]}
{"id": "C67", "title": "The outcome of building is known for all calls", "statement": "FeatureModelBuilder::buildFeatureModel yields a model exactly if no name is declared twice, edges, groups and constraints only mention declared features, and no edge leads from a feature to itself. The model then has the declared features, each directly or through the group below the feature named by the last edge to it, without an edge below the root, and the groups and constraints in the order of the calls. A group of an undeclared feature is undefined behaviour unless a declaration, an edge or an earlier constraint is wrong; all other calls yield null. The model is a tree exactly if no edge leads to the root and every feature is below the root; the builder does not see to that: edges in a circle give a model that passes the consistency checks, with features that are not reachable from the root.", "quantifier": "every sequence of builder calls that mentions features by name and groups no feature twice, every heap and iteration order of sets", "why_tests_cant": "Tests build a few well-formed models and a duplicate name; they do not combine wrong edges, groups and constraints, and none has edges in a circle.", "anchors": ["include/vara/Feature/FeatureModelBuilder.h: FeatureModelBuilder", "lib/Feature/FeatureModelBuilder.cpp: FeatureModelBuilder::buildFeatureModel", "include/vara/Feature/FeatureModelTransaction.h: AddChild, AddRelationshipToModel", "include/vara/Feature/FeatureModel.h: CheckFeatureParentChildRelationShip"]}
{"id": "C68", "title": "The outcome of reading an XML document is known", "statement": "A valid XML document is well-written if its lines and columns are numbers that fit into int, its step functions can be read, no constraint is empty, and mixed constraints have both of their attributes. FeatureModelXmlParser refuses a valid, well-written document exactly if it stands for no calls on the builder (two parents for a feature, an unreadable constraint), yields null exactly if the calls name a feature twice or mention an unknown one, and otherwise, if all features are below the root, yields a model that is a tree. Nothing is read from documents that are not well-written. Not true are that valid documents are refused instead of running into undefined behaviour (an empty constraint, a line beyond int), that models that are read are trees (parents in a circle), and that reading well-written documents is always defined (the root below a circle). Reading a document whose calls are acceptable is undefined exactly if the root has a parent and no feature below the root has the name of this parent, up to case; otherwise it yields a consistent model with exactly the declared features, each below the parent it names last.", "quantifier": "every document tree, working directory, reading of exponents and step functions, heap and iteration order of sets", "why_tests_cant": "The tests read well-formed example files; malformed positions, empty constraints and circular parents do not occur in them.", "anchors": ["lib/Feature/FeatureModelParser.cpp: FeatureModelXmlParser::buildFeatureModel, parseVm, parseConfigurationOption, parseConstraints, createFeatureSourceLocation, detectXMLAlternatives", "include/vara/Feature/FeatureModel.h: DFSIterator"]}
{"id": "C69", "title": "The edit functions change exactly what they are asked to, or nothing", "statement": "addFeature makes the feature the last child of its parent (of the root if no parent is given) and changes nothing if the name is taken. addFeatures adds the features before the first one whose name is taken or repeated, and none after it; the caller is not told. removeFeature changes nothing for unknown names and for features with children unless it is recursive; otherwise exactly the subtree of the feature goes; it is undefined for the root. addRelationship groups the children of a feature without a group and removeRelationship restores the model; addRelationship of an unknown name is undefined. setCommit changes only the commit.", "quantifier": "for all models, features, lists of features, references, kinds of groups and iteration orders", "why_tests_cant": "The tests call each function on one small model; that addFeatures stops silently in the middle of a list and that the effects are limited to the named feature depends on all models and lists.", "anchors": ["lib/Feature/FeatureModelTransaction.cpp:17-39", "lib/Feature/FeatureModelTransaction.cpp:141-160", "include/vara/Feature/FeatureModelTransaction.h:86-160"]}
{"id": "C70", "title": "Models built from Python are as asked for, but all features are mandatory", "statement": "If the calls of a Python caller are acceptable to the builder, the model has exactly the features, edges, groups and constraints asked for, and its valid configurations are those of the calls with every feature made mandatory: make_binary_feature drops its argument Opt, so valid configurations are lost. Unacceptable calls give None, and relations other than OR and XOR, or groups placed on features that cannot be grouped, are undefined. Features added from Python to an existing model keep kind, values, optionality and locations and hang below the given feature; remove_feature removes exactly the subtree asked for, or nothing for a feature with children unless it is recursive; setting the commit changes nothing else.", "quantifier": "for all sequences of Python calls, heaps, models and iteration orders", "why_tests_cant": "The tests of the bindings do not build models; the loss of optionality shows only when configurations are compared, which needs all assignments.", "anchors": ["bindings/python/vara-feature/pybind_FeatureModelBuilder.cpp:16-90", "bindings/python/vara-feature/pybind_FeatureModel.cpp:62-128"]}
{"id": "C71", "title": "Numeric options of XML documents have the values written", "statement": "With the arithmetic of doubles: if a numeric option of an XML document lists integers, or gives integer bounds with a step function that adds or multiplies by a positive integer (name and number in either order, bounds also with exponents), then in every valid configuration of the model read the option has one of the listed integers, of the numbers of the arithmetic progression up to the upper bound, or of the geometric one; and every such value can replace the one in a valid configuration if no constraint mentions the option. If all numeric options are of this form, all ranges are left and the enumeration lists every configuration the document describes once. Decimal places are not refused: the bounds 0.5 and 10 make an empty range, and the values 0.5 and 1.5 are read as 0, 5 and 1.", "quantifier": "for all documents, options, bounds and step functions of this form (numbers exact in 53 bits), assignments, iteration orders and satisfiability oracles", "why_tests_cant": "The step function goes through doubles and the values through the solver; tests check a few ranges and never the whole path from document to configurations.", "anchors": ["lib/Feature/FeatureModelParser.cpp:110-150", "include/vara/Feature/StepFunction.h:29-55", "include/vara/Feature/ConstraintParser.h:278-301", "lib/Solver/Z3Solver.cpp:25-62"]}
{"id": "C72", "title": "Merged models have the configurations of the first model that obey the new features", "statement": "For a first model whose constraints mention its own features, whose groups hold all children of their parents and whose numeric features list their values, and a second model that fits and shares the root: the valid configurations of the merged model are exactly those of the first model in which every feature only the second model has obeys its rules, namely a binary one is selected only with its parent, a mandatory one whenever its parent is, and a numeric one has a value of its list. If the new numeric features have values, every valid configuration of the first model extends to one of the merged model. In strict mode, if the second model has no groups and constraints, lists its values, and no names of the two differ in case only, they are exactly the configurations valid in both models. With an alternative in the second model this fails: its members become mandatory together, and no valid configuration of the merged model is valid in the second one.", "quantifier": "for all such pairs of models, both modes, all assignments and all iteration orders", "why_tests_cant": "The tests of merging compare trees of a few pairs of models; which configurations the result allows is never looked at.", "anchors": ["lib/Feature/FeatureModelTransaction.cpp:162-267", "lib/Feature/FeatureModel.cpp:44-115", "lib/Solver/Z3Solver.cpp:25-62"]}
{"id": "C73", "title": "Saving and loading a model again changes no feature, tree or text of a constraint after the first time", "statement": "A model that can be written can be saved as XML and loaded again any number of times, each time by another program run with its own memory, iteration order and working directory. However often this is done, no more is lost than the first time. From the first time on all loaded models are the same: same name, path and commit, same features with the same kinds, values, optionality and source ranges, same tree and groups, the same boolean constraints as texts (how often each is stated is C75), and the same non-boolean and mixed constraints in the same order. What the first time changes (an or-group becomes an alternative, values are cut to 32 bits, exclusions of group members become constraints) happens once only.", "quantifier": "for all writable models, all numbers of repetitions, all iteration orders, memories and number readers of each run", "why_tests_cant": "The tests write a handful of models at most once and compare with a stored file; a second round trip is never made.", "anchors": ["lib/Feature/FeatureModelWriter.cpp: FeatureModelXmlWriter", "lib/Feature/FeatureModelParser.cpp: FeatureModelXmlParser"]}
{"id": "C74", "title": "Equality of features ignores case, so different features can be equal", "statement": "Two features compare equal if and only if their names are the same but for the case of letters, this is an equivalence, and equal features have the same hash. In a model without two names that differ in case only, exactly one of less, equal and greater holds for two features, only a feature itself is equal to it, and a Python set of features of the model has all of them. In general a Python set of features has exactly one of each group of features whose names differ in case only. Model keys are case sensitive, so a model can hold such features: then two different features are equal while one is less than the other, and a Python set keeps only the first.", "quantifier": "for all features and models, all hash functions and all lists of features", "why_tests_cant": "The tests compare a few features with unrelated names; names that differ in case only do not occur.", "anchors": ["include/vara/Feature/Feature.h:50-90", "bindings/python/vara-feature/pybind_Feature.cpp:41-88"]}
{"id": "C75", "title": "How often constraints are stated after saving and loading", "statement": "When a model is saved as XML and loaded, a boolean implication between two different features is stated as often as it was stated in the whole model, an implication of a feature with itself twice as often, an exclusion between two options once however often it was stated, and the other boolean constraints come back one by one and in order. So after n times an implication that was stated p times among the boolean and k times among the non-boolean and mixed constraints is stated p + n*k times, and for a feature with itself the number x satisfies x + 2k = 2^n (p + 2k). The size of a saved model is therefore not stable: it grows with every time if k is positive, and doubles if a feature implies itself.", "quantifier": "for all writable models that know their constraints, all numbers of repetitions, all iteration orders, memories and number readers of each run", "why_tests_cant": "The tests write a model at most once and never write a feature that implies itself or an implication stored as a non-boolean constraint.", "anchors": ["lib/Feature/FeatureModelWriter.cpp: FeatureModelXmlWriter::writeFeature", "include/vara/Feature/Feature.h: Feature::addConstraint", "include/vara/Feature/FeatureModelTransaction.h: AddConstraintToModel"]}
{"id": "C76", "title": "Saved documents are reproducible", "statement": "The XML document written for a model does not depend on the addresses of its features or on the order in which its sets of pointers are visited: two models with the same named features in the same tree, the same implications as often, the same exclusions and the same other constraints are written as the same document, provided siblings have names that differ in more than case. If no feature implies itself and implications are stored as boolean constraints, all models loaded from saved documents are again saved as one and the same document, however often this is repeated; and if moreover the root has no locations and there are boolean constraints whenever anything excludes anything, this document is the one written for the model in the beginning. Siblings whose names differ only in case are written in either order.", "quantifier": "for all writable models that know their constraints, all memories, iteration orders and numbers of repetitions", "why_tests_cant": "Iteration orders depend on addresses given out by the allocator; tests see one order per run and compare at most one written file with an expected one.", "anchors": ["lib/Feature/FeatureModelWriter.cpp: FeatureModelXmlWriter::writeVm", "lib/Feature/FeatureModelWriter.cpp: FeatureModelXmlWriter::writeFeature", "lib/Feature/FeatureModelParser.cpp: FeatureModelXmlParser::parseVm"]}
{"id": "C77", "title": "Careful use of the interface is defined and keeps models in good condition", "statement": "Call a model sound if it is a tree in which features know their constraints and constraints mention features of the model. A modification of a model has no undefined behaviour exactly if the root is not removed, groups and locations are put on features that exist, what is ungrouped is grouped, locations taken away are there, and constraints do not point to deleted features; it keeps constraints about features of the model exactly if no removed feature is mentioned and added constraints mention features of the model. A transaction whose modifications satisfy this at their turn is committed without being refused as inconsistent, and the model is sound afterwards, also if a modification was refused. So every model that is created, built, loaded from a document that describes one, saved and loaded again, modified in this way, cloned, copied by a transaction or merged, in any number of steps and with any iteration orders, is sound; and sound models pass the consistency check, can be iterated over and printed completely, drawn, cloned and saved.", "quantifier": "for all models obtained by any sequence of these steps, all queues of modifications, all iteration orders and memories", "why_tests_cant": "Sequences of operations are unbounded, and undefined behaviour need not show in a test run.", "anchors": ["include/vara/Feature/FeatureModelTransaction.h: FeatureModelTransaction", "include/vara/Feature/FeatureModelTransaction.h: FeatureModelModifyTransactionMode::commitImpl", "include/vara/Feature/FeatureModel.h: FeatureModel", "lib/Feature/FeatureModelBuilder.cpp: FeatureModelBuilder::buildFeatureModel", "lib/Feature/FeatureModelParser.cpp: FeatureModelXmlParser::buildFeatureModel", "lib/Feature/FeatureModel.cpp: FeatureModel::clone"]}
{"id": "C78", "title": "Models that look the same have the same configurations, and loading again keeps them", "statement": "The valid configurations of a model and the configurations the solver enumerates depend only on the names, kinds, optionality and values of its features, on the tree, the groups and the constraints by name; not on identities, on the order of children or constraints, or on how often a boolean constraint is stated. So whatever the first saving and loading of a model changes, e.g. or-groups becoming alternatives, all further savings and loadings, however many and with whatever iteration orders, keep the valid configurations and the enumeration.", "quantifier": "for all pairs of models, all assignments, all numbers of savings and loadings, all iteration orders and all solvers that decide the formulas", "why_tests_cant": "Tests load a document once and do not compare the configurations of models loaded repeatedly.", "anchors": ["lib/Feature/FeatureModelWriter.cpp: FeatureModelXmlWriter", "lib/Feature/FeatureModelParser.cpp: FeatureModelXmlParser::buildFeatureModel", "lib/Solver/Z3Solver.cpp: Z3Solver", "include/vara/Solver/ConfigurationFactory.h: ConfigurationFactory"]}
{"id": "C79", "title": "Copy transactions do to the copy what modify transactions do to the original", "statement": "A call of a copy transaction with features given by name or by pointers into whatever model modifies the feature of the copy that has that name; adding a feature, a group or a constraint and setting the root report the error of that modification, the other calls report nothing; moving a feature, and removing or ungrouping a feature whose name the copy does not have, do nothing; all else is undefined. If all modifications succeed and the copy is consistent, the model handed out is the one a modify transaction with the same modifications would make of the clone. If the modifications are in order as in C77, every call is defined, the copy is handed out, and the copy and the original are sound.", "quantifier": "for all sound models, all sequences of calls, all iteration orders and memories", "why_tests_cant": "Sequences of calls are unbounded, and wrong translation between the two models may only show as a wrong parent or undefined behaviour.", "anchors": ["include/vara/Feature/FeatureModelTransaction.h: FeatureModelCopyTransactionBase", "include/vara/Feature/FeatureModelTransaction.h: FeatureModelTransaction", "lib/Feature/FeatureModel.cpp: FeatureModel::clone"]}
{"id": "C80", "title": "Clones are the same as plain originals and saved as the same document", "statement": "The clone of a sound model agrees with it in name, path, commit, features, tree, groups and constraints exactly if the model is plain: no feature has an output string or a step function, the root is mandatory and has no source ranges, and all children of a feature with a group are in the group. Clones are plain, so a clone of a clone is the same as the clone. Clones of plain models have the same valid configurations. If the root is mandatory and without source ranges, all children of grouped features are grouped, and names of siblings differ in more than case, a model that can be saved and its clone are saved as the same document, whatever the iteration orders.", "quantifier": "for all sound models in all memories, all iteration orders of cloning and saving", "why_tests_cant": "Whether something is lost depends on combinations of groups, children and kinds of features, and whether documents agree on iteration orders.", "anchors": ["lib/Feature/FeatureModel.cpp: FeatureModel::clone", "lib/Feature/FeatureModelBuilder.cpp: FeatureModelBuilder::buildFeatureModel", "lib/Feature/FeatureModelWriter.cpp: FeatureModelXmlWriter::writeFeatureModel"]}
{"id": "C81", "title": "Documents in the SXFM format saved as XML keep their tree and become alternatives", "statement": "A well-formed document in the SXFM format whose root and nothing else is called root or base, whose labels have no blanks at their ends, and whose groups have at least two entries, none of them optional, is read, saved as XML and read again without an error. The resulting model has the name and the tree of the document, every group being an alternative; its constraints are the formulas of the document and the exclusions of members of the same group. Its valid configurations are exactly those of the document with or-groups read as alternatives, none if a negation occurs, and they are enumerated each once. Or-groups therefore lose configurations, and a root with another name ends up below a new root.", "quantifier": "for all documents, memories, iteration orders, hash orders and deciding oracles", "why_tests_cant": "The reader of one format, the writer of another and the detection of alternatives work together on documents of any size and depth.", "anchors": ["lib/Feature/FeatureModelParser.cpp: FeatureModelSxfmParser::buildFeatureModel", "lib/Feature/FeatureModelWriter.cpp: FeatureModelXmlWriter::writeFeature", "lib/Feature/FeatureModelParser.cpp: FeatureModelXmlParser::buildFeatureModel"]}
{"id": "C82", "title": "Models whose root is called neither root nor base are saved and come back below a new root", "statement": "A model none of whose features is called root or base, and whose names, values, places and constraints can be written, is saved as a valid XML document. Reading it gives a model with one more feature, a root called root, below which all features hang as they did; the former root is a binary feature directly below it and keeps its locations. Names, values, optional marks, constraints and groups come back as for other models. If the groups are alternatives that have at least two members and no optional ones, exclusions mean groups, and numbers are listed and small, the valid configurations are exactly the former ones with the new root selected, and the enumeration lists equally many. Saving and loading again and again adds no further root.", "quantifier": "for all models, memories, iteration orders, numbers of repetitions and deciding oracles", "why_tests_cant": "The new root follows from the order in which the reader sees the options and from what the writer leaves out; models have any size, and any number of repetitions is possible.", "anchors": ["lib/Feature/FeatureModelWriter.cpp: FeatureModelXmlWriter::writeFeature", "lib/Feature/FeatureModelParser.cpp: FeatureModelXmlParser::parseConfigurationOption", "lib/Feature/FeatureModelBuilder.cpp: FeatureModelBuilder::buildFeatureModel"]}
{"id": "C83", "title": "SXFM documents whose root is called neither root nor base saved as XML keep their configurations below a new root", "statement": "An SXFM document none of whose labels is root or base, whose labels have no blanks at their ends and all of whose groups have at least two members and no optional ones is read, saved as XML and read again. The model that comes back is indented like the text one level deeper below a new root called root, with the former root mandatory and every group turned into an alternative; it states the formulas and the exclusions of the members of the same group. Its configurations are exactly those of the text with every group turned into an alternative and the new root selected, and they are enumerated, each once.", "quantifier": "for all texts, memories, iteration orders and deciding oracles", "why_tests_cant": "Documents have any size and shape; the claim joins three components and compares all configurations.", "anchors": ["lib/Feature/FeatureModelParser.cpp: FeatureModelSxfmParser::parseFeatureTree", "lib/Feature/FeatureModelWriter.cpp: FeatureModelXmlWriter::writeFeature", "lib/Feature/FeatureModelParser.cpp: FeatureModelXmlParser::parseConfigurationOption", "lib/Feature/FeatureModelBuilder.cpp: FeatureModelBuilder::buildFeatureModel"]}
{"id": "C84", "title": "Merging a model with itself clones it, and merging again with the same model adds nothing", "statement": "Merging a model with itself always succeeds, in strict mode if no feature is of unknown kind, and gives what a clone of the model keeps; the configurations are the same. If a model that was merged with a second one is merged with it once more, not in strict mode, the merge succeeds, the same features with the same values, marks and source ranges hang in the same places and groups, the same constraints are stated and the configurations are the same, provided that groups hold all children of their parent and the second model adds no feature below a feature with a group.", "quantifier": "for all models, memories and iteration orders", "why_tests_cant": "All models must be covered, and two merges with any iteration orders are compared feature by feature and over all configurations.", "anchors": ["lib/Feature/FeatureModelTransaction.cpp: mergeFeatureModels", "lib/Feature/FeatureModelTransaction.cpp: mergeSubtree", "lib/Feature/FeatureModelTransaction.cpp: compareProperties"]}
{"id": "C85", "title": "Strict merging of models without groups does not depend on the order", "statement": "If two models without groups and constraints can be merged in strict mode, they can be merged either way round, provided that no feature of the first is of unknown kind and the names of the models differ in more than upper and lower case. Both merges give the same feature names and root name, every feature has the same kind, optionality and parent feature, features other than the root have the same source ranges up to their order, and the configurations are the same. With a group in one of the models the configurations can depend on the order, and so can the kind of a feature outside strict mode.", "quantifier": "for all models, memories and iteration orders of both merges", "why_tests_cant": "All pairs of models must be covered, and two merges with different iteration orders are compared feature by feature and over all configurations.", "anchors": ["lib/Feature/FeatureModelTransaction.cpp: mergeFeatureModels", "lib/Feature/FeatureModelTransaction.cpp: mergeSubtree", "lib/Feature/FeatureModelTransaction.cpp: compareProperties"]}
{"id": "C86", "title": "Modifications can be undone", "statement": "Adding a feature is undone by removing it, adding a source range that no range of the feature equals by removing it, moving the last child of a node by moving it back, and setting the name, path or commit by setting it to what it was: both modifications are accepted and afterwards the model, its root, features, groups and constraints and every node with its contents, parent and order of children are exactly as before. A transaction of such modifications is undone by those that undo them in reverse order, committed in a transaction of their own or at the end of the same transaction. Replacing the root and replacing it again by one of the old name gives the old tree below an empty root.", "quantifier": "for all models, memories, iteration orders and sequences of such modifications", "why_tests_cant": "Every sequence of modifications of every model must be covered, and the whole memory before and after is compared.", "anchors": ["include/vara/Feature/FeatureModelTransaction.h: AddFeatureToModel", "include/vara/Feature/FeatureModelTransaction.h: RemoveFeatureFromModel", "include/vara/Feature/FeatureModelTransaction.h: AddChild", "include/vara/Feature/FeatureModelTransaction.h: AddLocationToFeature", "include/vara/Feature/FeatureModelTransaction.h: RemoveLocationFromFeature", "include/vara/Feature/FeatureModelTransaction.h: SetRoot"]}
{"id": "C87", "title": "Builder calls can be made in any order", "statement": "If the calls on a model builder describe a tree, do not set the parent of a feature or the name, commit, path or root of the model to different values, and add no feature called root, then the same calls in any other order are accepted as well, and the two models have the same name, path, commit, root, features with the same contents, parents, groups and constraints (up to the order in which features and constraints are listed) and the same valid configurations. Otherwise the order matters: the last of several edges to a feature counts, and a feature called root is refused before the root is renamed but accepted after.", "quantifier": "for all sequences of calls, all their permutations, all memories and iteration orders", "why_tests_cant": "There are as many orders as permutations of the calls, and the claim compares the models built in any two of them.", "anchors": ["include/vara/Feature/FeatureModelBuilder.h: FeatureModelBuilder", "lib/Feature/FeatureModelBuilder.cpp: FeatureModelBuilder::buildFeatureModel"]}
{"id": "C88", "title": "Moved transactions keep their modifications", "statement": "If a program treats every modify transaction as an object with one owner (moves it between variables, uses it where it was moved to, does not overwrite an open one, and commits, aborts or destroys it while the model exists), then the program runs without failure and the model ends as it does when each transaction makes its modifications in order, up to the first refused, when it is committed or its last owner destroyed. Whatever a program does, no modification is executed twice and none that was not asked for; without aborts and assignments each one is passed on exactly once. A variable that was moved from is not finished: its destructor still accesses the model, committing it is reported as a success; assigning to an open transaction drops its modifications, and modifications asked of a finished transaction are sometimes dropped silently.", "quantifier": "for all programs of opening, calling, moving, assigning, committing, aborting, destroying and deleting statements over any number of variables, all models and iteration orders", "why_tests_cant": "Programs with several transactions that are moved around have no bound, and the default move leaves the pointer to the model in the source, which is observable only in particular orders of destruction.", "anchors": ["include/vara/Feature/FeatureModelTransaction.h: FeatureModelTransaction", "include/vara/Feature/FeatureModelTransaction.h: FeatureModelModifyTransactionBase"]}
{"id": "C89", "title": "Results are passed on, except copies of numbers", "statement": "A Result keeps its value or error however it is moved, copied from a constant or, if its value type cannot be constructed from a bool, copied from a variable. If the value type is bool or a number, a copy taken of a variable that is not constant is a success holding 1 (true) or 0 (false) depending on whether the original was a success, and after a second copy always 1: only the result that holds 1 survives. So a copy of the result of getNumConfigs is right only if there is exactly one configuration, and a copy of the result of hasValidConfigurations always says true. A value that was extracted is gone while the result still tests true.", "quantifier": "for all error and value types, all results, all sequences of moves and copies, and all solver states", "why_tests_cant": "The claim is about all types a class template can be instantiated with; the tests of the class move results or use them in place.", "anchors": ["include/vara/Utils/Result.h: Result", "include/vara/Solver/ConfigurationFactory.h: ConfigurationFactory::getNumConfigs", "lib/Solver/Z3Solver.cpp: Z3Solver::hasValidConfigurations"]}
{"id": "C90", "title": "The number of configurations follows from the tree", "statement": "For a feature model without constraints, the number of configurations that ConfigurationFactory::getNumConfigs reports is given by the shape of the tree: the choices of different children are multiplied; an optional feature contributes its own choices plus those it leaves when unselected; an alternative group adds up the choices of each member alone; an or group counts all choices but the empty one. A numeric feature contributes the number of its distinct values, whether its parent is selected or not. If the number is zero the answer is UNSAT. Adding a feature without children at the root multiplies the number by one if it is mandatory, by two if it is optional, and by the number of its values if it is numeric.", "quantifier": "for all feature models the solver supports that have no constraints and whose groups have binary members, all orders of iteration, and all solvers that decide satisfiability", "why_tests_cant": "The number grows exponentially with the model; tests compare a handful of small models with numbers counted by hand.", "anchors": ["include/vara/Solver/ConfigurationFactory.h: ConfigurationFactory::getNumConfigs", "lib/Solver/Z3Solver.cpp: Z3Solver::addFeature", "lib/Solver/Z3Solver.cpp: Z3Solver::addRelationship", "lib/Solver/SolverFactory.cpp: SolverFactory::applyModelOnSolver"]}
{"id": "C91", "title": "Builders build and readers read once", "statement": "For any sequence of calls and buildFeatureModel on one FeatureModelBuilder, everything is decided by the calls before the first buildFeatureModel. If that one returns a model, no other use but emplaceRelationship and addConstraint is possible, and these are lost without notice. If it returns null, every later one returns null as well, and the calls that can still be made change nothing. So at most one model is ever returned. A FeatureModelXmlParser that has refused a document refuses it again, even if it has read parts of other documents; one that has come to building fails an assertion when asked again for a valid document.", "quantifier": "for all sequences of calls and buildings, all heaps, all XML documents, and all orders of iteration", "why_tests_cant": "Sequences of calls are unbounded; the tests use each builder and parser once.", "anchors": ["lib/Feature/FeatureModelBuilder.cpp: FeatureModelBuilder::buildFeatureModel", "include/vara/Feature/FeatureModelBuilder.h: FeatureModelBuilder", "lib/Feature/FeatureModelParser.cpp: FeatureModelXmlParser::buildFeatureModel", "include/vara/Feature/FeatureModelTransaction.h: commitImpl"]}
{"id": "C92", "title": "Iterators over configurations share one place", "statement": "For a solver loaded in any way there is one list of all its configurations, each once, such that every program on the iterators of a ConfigurationIterable (begin, copies, dereferencing, increments, comparisons, in any number and order) and on its solver (getCurrentConfiguration, getNextConfiguration, hasValidConfigurations) sees what a single place in this list shows, moved by all of them: dereferencing shows the configuration at the place, or goes to the first one if there is no place yet; an increment of any iterator moves the place on, or ends this iterator alone if the place is the last. Iterators are equal if both or neither have been ended. The list is what getAllConfigs returns; the first range-based loop over an iterable gets the whole list, each further loop its last configuration only, and without configurations each loop gets the error UNSAT once. A program is undefined only if it uses an ended iterator.", "quantifier": "for all solvers reached by any calls, all programs on any number of iterators, all numbers of loops, and all correct deterministic satisfiability oracles", "why_tests_cant": "The programs and the configurations are unbounded; the tests run one loop over each iterable.", "anchors": ["include/vara/Solver/ConfigurationFactory.h: ConfigurationIterable", "include/vara/Solver/ConfigurationFactory.h: ConfigurationIterator", "lib/Solver/Z3Solver.cpp: Z3Solver::getCurrentConfiguration", "lib/Solver/Z3Solver.cpp: Z3Solver::getNextConfiguration"]}
{"id": "C93", "title": "Opposite constraints split the configurations", "statement": "A boolean or non-boolean constraint and its negation, or a mixed constraint that requires nothing declared positive and negative, can both be added to a model the solver supports, and the number of configurations getNumConfigs reports with the one and with the other add up to the number without either; no configurations are reported as UNSAT. No constraint of any kind increases the number. This holds for constraints without division; a configuration that makes a constraint divide by zero can be valid with the constraint and also with its negation.", "quantifier": "for all models the solver supports, all well-typed constraints over their features without xor (and without division for the sum), all orders of iteration and all correct satisfiability oracles, also different ones", "why_tests_cant": "Models and constraints are unbounded; the tests compare numbers for single fixed models.", "anchors": ["include/vara/Solver/ConfigurationFactory.h: ConfigurationFactory::getNumConfigs", "lib/Solver/Z3Solver.cpp: Z3Solver::addConstraint", "lib/Solver/Z3Solver.cpp: Z3Solver::addMixedConstraint", "include/vara/Feature/FeatureModelTransaction.h: AddConstraintToModel"]}
{"id": "C94", "title": "The solver can be extended between configurations", "statement": "A program may add options and constraints to a solver before, between and after asking it for configurations. The next configuration is always valid with respect to everything added so far and differs from every configuration given before in an option the earlier one has; asking changes neither the answers to later additions nor whether they are defined. If no options were added after the first question, UNSAT is returned exactly when every configuration that is valid now was given. The current configuration keeps the values of the one given last and has a value for every option added since, and asking for the existence of configurations is answered correctly until one was given and fails with ILLEGAL_STATE from then on. Configurations with options that are added late can be missed altogether, and the current configuration need not be valid after additions.", "quantifier": "for all sequences of additions (refused ones included) and questions on a new solver, and all oracles that are right about the formulas asserted at the time of the question", "why_tests_cant": "Programs are unbounded sequences of calls; the tests load a model once and enumerate afterwards.", "anchors": ["lib/Solver/Z3Solver.cpp: Z3Solver::getNextConfiguration", "lib/Solver/Z3Solver.cpp: Z3Solver::getCurrentConfiguration", "lib/Solver/Z3Solver.cpp: Z3Solver::excludeCurrentConfiguration", "lib/Solver/Z3Solver.cpp: Z3Solver::hasValidConfigurations"]}
{"id": "C95", "title": "Any number of models can be merged in any order", "statement": "Models without groups and constraints that share their root are merged one after the other in strict mode. This succeeds exactly if any two of them can be merged, no matter how many there are. The merged model has the features of all of them, each with its kind, values and mark and below the feature it hangs below in every one of them; a feature other than the root has the source ranges it has in any of the models. If numeric features list their values, a configuration is valid for the merged model exactly if it is valid for every one of the models. Any order of the models yields the same features in the same places and the same configurations. The models stay as they were. All this supposes that different names differ in more than case: otherwise the place of a feature depends on the order.", "quantifier": "for all lists of models in one heap, all orders of the list and all iteration orders of the containers", "why_tests_cant": "The tests merge two small models; lists of models and their orders are unbounded.", "anchors": ["lib/Feature/FeatureModelTransaction.cpp: mergeFeatureModels", "lib/Feature/FeatureModelTransaction.cpp: mergeSubtree", "lib/Feature/FeatureModelTransaction.cpp: compareProperties"]}
{"id": "C96", "title": "Saving models to files", "statement": "A program saves models, which it may change in between, to paths; a path may not be writable and writing may fail midway. Afterwards a file is what the last saving that could open it left there, and as before if none could; if nothing failed then, the file is valid and loading it yields the model as it was then. A positive result means that the model was saved and a negative one that writing failed; other files are not touched. A path that cannot be opened yields zero, so a result that is not negative does not mean that the model was saved.", "quantifier": "for all sequences of savings of all models to all paths, all failures of the file system and all contents failed writing leaves behind", "why_tests_cant": "The tests write to strings only; files that cannot be opened and failures midway do not occur in them.", "anchors": ["lib/Feature/FeatureModelWriter.cpp: FeatureModelXmlWriter::writeFeatureModel", "lib/Feature/FeatureModel.cpp: loadFeatureModel", "lib/Feature/FeatureModel.cpp: verifyFeatureModel", "bindings/python/vara-feature/pybind_FeatureModelXmlWriter.cpp: init_xml_writer"]}
{"id": "C97", "title": "How much of a document is read", "statement": "The readers pass the text of a document and its length to libxml, after the length was converted to an int. Exactly the documents of less than 2 GiB are read as they are. Of a longer one only the first bytes are read, their number being the length modulo 4 GiB but less than 2 GiB, except that a build with assertions stops if the length modulo 4 GiB is 2 GiB or more. So for every document of less than 2 GiB there is a longer one of which just this part is read, without any complaint even in a build with assertions. Both document types are read as a whole.", "quantifier": "for all texts, with and without assertions", "why_tests_cant": "A document of 2 GiB or 4 GiB is not practical in a unit test.", "anchors": ["include/vara/Utils/VariantUtil.h: checkedNarrowingSignConversion", "lib/Feature/FeatureModelParser.cpp: FeatureModelXmlParser::createDtd, FeatureModelXmlParser::parseDoc", "lib/Feature/FeatureModelParser.cpp: FeatureModelSxfmParser::createDtd, FeatureModelSxfmParser::parseDoc"]}
{"id": "C98", "title": "Iterators over features are places of their own, compared by name", "statement": "Every program on the iterators over the features of a model (begin, end, iterators that start at a feature, copies, dereferencing, prefix and postfix increments, comparisons, in any number and order) sees what separate places show: an iterator stands in the list of the features at and below the one it started at, parents first and siblings by name in lower case, and these features stand together, in the same order, in the list of every feature above; increments move only the iterator itself, also past the end, where dereferencing gives null; a postfix increment returns the old place. An iterator reaches the end after exactly as many increments as there are features at and below the one it started at. Two iterators are equal exactly if both are at the end or their features have the same name in lower case. So if the names of all features differ in more than case, iterators are equal exactly at the same feature, and equal iterators that come from begin and end stay equal after a step of both, as forward iterators must. With names that differ in case only iterators at different features are equal; and equal iterators of which one started at a feature below the root may differ after a step of both, though (if names differ in more than case) only because one of them is then at its end.", "quantifier": "for all programs on any number of iterators, all feature trees and all iteration orders of children", "why_tests_cant": "The tests iterate with one iterator from begin to end; copies, comparisons between iterators at different features and names that differ in case only do not occur.", "anchors": ["include/vara/Feature/FeatureModel.h: FeatureModel::DFSIterator, FeatureModel::begin, FeatureModel::end", "include/vara/Feature/Feature.h: Feature::operator=="]}
