# Formal model of jhump/gopoet in Rocq (Coq 8.16.1)

Everything lives in `rocq/theories/`.  The files are split in five layers:

| layer | files | content |
|---|---|---|
| base | `Base`, `GoPath`, `Utf8`, `Quote`, `UnicodeTables` | the result/panic type, strings, and the Go standard-library functions gopoet calls (`path.Base`, `filepath.*`, UTF-8 decoding, `strconv.Quote/CanBackquote`, simple case mapping) |
| model | `Types`, `Imports`, `Names`, `Conv`, `Fmt`, `World`, `Template`, `Write` | the code of gopoet, function by function, each definition citing file and lines |
| spec | `Spec*` | small independent vocabulary used in theorem statements: the Go type grammar, string-literal evaluation, name resolution through an import list, sortedness, ... |
| properties | `Prop*` | only theorem statements closed by `exact lemma`, non-vacuity `Example`s and `Print Assumptions` |
| proofs | `*Proofs`, `*Facts`, `*Text`, `*Parse`, `*Theorems`, `Build*`, `FromSpec`, `TemplateRuns`, `TemplateOrder`, `QualifyExamples` | lemmas |

## Modelling conventions

* A Go `string` is a Coq `string` (list of bytes).  `int`/`int64` values are `Z` or `nat`/`N` (no property
  depends on wrap-around).
* A Go panic is a value: `res A := Ok a | Panic msg`.  A method that mutates `*Imports` is a function
  `imports -> res A * imports`: the state survives a panic, as it does in Go under `recover`.
* Go maps are association lists; whenever Go iterates over a map, the model takes the iteration order as an explicit
  argument (any permutation of the entries) and theorems quantify over it.
* Unbounded loops run on explicit fuel and return a distinguished panic when it is exhausted; theorems prove the fuel is never exhausted.
* Pointer identity of `TypeName`s (`nelem != elem`) is modelled by returning, next to each result, a flag
  "this is a freshly allocated value"; the flag is exactly the truth value of Go's `!=`.
* The mutable object graph (files, decls, specs, code blocks, argument slices) is an explicit heap (`World`), so that
  sharing between files and repeated writing are expressible.
* External behaviour (go/format, the writer, the open function, text/template execution, fmt for anything but
  `%s`/`%v`/`%q`/`%d`/`%%`, non-ASCII printability) is a universally quantified argument.

## Plan per property

| property | model | proof |
|---|---|---|
| C01-C04, C06, C07 | `Imports.v`: state with the two maps, `prefixForPackage` with fuelled search loop | invariant (the two maps are mutually inverse, own path absent) by induction over arbitrary op histories; pigeonhole for termination; minimality of suffix |
| C05 | `ImportSpecs` over an arbitrary permutation of the map | sortedness + uniqueness of sorted permutation |
| C08-C11 | `qualify`, `qualifyType`, ... in a state monad | induction on types; monotone growth of the state; idempotence w.r.t. any extension |
| C12, C18, C20, C21 | renderer + independent lexer/parser of the Go type grammar | `parse (render t) = Some (denote t)` by induction; resolution through import specs; `_refuted` witnesses for the two defective shapes; exact reading of all types with usable names (glued tokens, a scan of the tokens no parse accepts) |
| C13, C14 | as above | `_refuted` witnesses, plus the exact condition under which it holds |
| C15, C16, C17, C19 | constructors and accessors of `types.go` | case analysis, induction for totality |
| C22 | `strconv.Quote`, `CanBackquote`, evaluation of Go string literals | round trip by induction on the byte string, all oracles for printable runes |
| C23, C24 | inductive model of go/types types, conversion | structural relation proved by induction; exact panic set; `_refuted` for `error` |
| C25, C26 | inductive model of reflect types, conversion | the same; `_refuted` for results and maps; both exact sets (accepted, faithful) in ConvExact.v |
| C27-C30 | UTF-8 decoding, case tables (generic + Unicode 15.0 simple mappings) | case analysis, sweep over the finite table, `_refuted` witnesses |
| C31, C32, C49 | string functions | induction on strings |
| C33-C36, C45 | `World.v` specs | case analysis / induction on bodies; C45_exact, C45_reading (`DeclExact.v`, spec `SpecDeclText.v`): the scan machinery of `TextExact.v` for types written over several lines, for any type with usable names |
| C37-C44 | `World.v` code blocks, qualification over the heap | monotonicity of imports + per-location idempotence; `_refuted` witnesses for sharing and named TypeSpec types; C44 for files that share (`SpecShare.v`, `SharedProofs.v`): a relation between worlds that differ in the package names of one file's parts, kept by every file written before it |
| C46-C48, C50, C51 | `Write.v`: event traces over oracles | induction on file list |
| C52-C57 | `Template.v`: reflect values as typed trees with addressability | induction on values; `_refuted` witnesses; exact conditions for panics, unchanged data and types in TemplateExact.v, for a second pass in TemplateTwice.v |
| C63, C64 | `SpecBuild.v`: descriptions of files, their meaning, the builder calls that follow them | induction on descriptions: every table grows only at its end, so what was built stays; then C62 |
| C65 | `SpecDoc.v`: the lexer again, keeping comments; which token each comment stands above; the comments expected of a file | same composition as C59 over events instead of tokens; the two readings agree on tokens |
| C66 | `ImportSpec_String`, grammar of C59 | as for import lines in C59 |
| C67, C68 | `World.v`: `setParent` of elements and members | loop invariants; `_refuted` by running builder programs |
| C69, C70 | `path.Base`; `decl_writeTo` | induction on strings; computation |
| C71 | `SpecBuildDoc.v`: the comments of a description, without builder objects; heads of embedded names through the import list | the files of C63 after qualification (skeleton of C46 kept, `*_after`), then C65 |
| C72 | `SpecCalls.v`: attributes, what each call is about, everything else | case analysis; commuting calls by sorting on attributes |
| C73 | `World.v`: `NewTypeSpec` | computation on both sides |
| C74, C79 | `Memory.v` against `Types.v`/`Imports.v`; `SpecMemory.v`: what a TypeName in memory stands for | simulation by induction on nesting depth; memory only grows; arrays being built are masked |
| C75 | accessors in `Memory.v` | copies are on new arrays, which no type can see; `_refuted` witnesses |
| C76, C77 | `AddArg` etc. with `append` in place or moving | frame: slices not beyond the end keep their cells; acyclicity of what has a meaning; `_refuted` witnesses |
| C78 | parts of a file qualified one after the other, signatures in place | simulation up to names already settled; depth of the shared signature decreases; `_refuted` witness for two files |
| C80, C81 | `SpecTotal.v`: complete files, type specs that hold themselves; no reference to fuel or to `qualify` | depth of nesting bounds the fuel when nothing holds itself; invariants of qualification (`QualifyProofs.v`) keep completeness; without end: by contradiction from the depth a run needs |
| C82 | `SpecTotal.v`: complete descriptions | the file of C63 is complete and acyclic, then C80 and C64 |
| C83-C87 | `SpecFileTemplate.v`: data of a file's templates, what they mention, data that reflection can handle | the proofs about files (`QualifyProofs.v`, `SourceTheorems.v`, `MeaningProofs.v`, `TotalTheorems.v`) carry any template data that, once qualified, stay as they are; `FileTemplates.v` shows this of data without specs of files. For other data, `TemplateOnce.v` runs a copy of the world in which the data of templates that are in the code once are marked when they are qualified, so that the copy leaves them alone; `OnceTheorems.v` transfers the theorems back, and `QuietProofs.v`, `TwiceTheorems.v` compare the second writing of the copy with that of the file (C85); `_refuted` witnesses |
| C88 | `SpecFileTemplate.v`: templates in a description | the file of C63 has no other template data than the description, and no template twice: the builders work the same whatever the data are, so they may be given labels that are all different (`BuildOnce.v`); then C86 and C87 |
| C89-C92 | `SpecProgram.v`: programs as lists of calls of the public functions on any number of files (the result of a call that builds a value without storing it is not recorded); what such a list did | a frame for every function of the model (`ProgramFrame.v`, `ProgramCalls.v`): tables only grow, files keep their identity and their elements, imports change by import calls; then induction over the list (`ProgramProofs.v`) |
| C93 | `SpecFormat.v`: a line as pieces of text and arguments; reading of decimals and literals | parsing the format of the pieces gives them back; C39 for each argument |
| C94 | `Predeclared.v` (the variables), `SpecPredeclared.v`: names of Go's predeclared types | case analysis; C09 and C10 for unsafe.Pointer |
| C95, C96 | `SpecMembers.v`: the type that members make up; the spec made of a member last, by recursion on the program | what every call leaves of members and specs (`MemberFrame.v`, `MemberCalls.v`); the effects of the constructors; induction on the program; writing changes types only in the names of packages (`MemberWriting.v`) |
| C97 | `SpecTemplateText.v`: the references in a value one by one, the text printed for each, and `written` of `SpecQualify.v` | from C53 the result is the data renamed, reference by reference (`TemplateText.v`); renamed references read back through the imports as in C39 |
| C98 | `SpecReferences.v`: what a thing is called, and its home: the file it was added to last, as made | names survive every call (`ReferenceProofs.v`); with the files of C90, the last file of C91 and the last spec of C96 |
| C99 | `SpecScope.v`: names introduced by imports, declared names, unqualified names, parameters used before a dot; `in_order`, `means` | resolving keeps declared, unqualified and captured names (`ScopeProofs.v`), the names of imports come from requests; four witnesses (`ScopeBuild.v`) |
| C100 | `SpecScope.v`: `type_qualifiers`, `used` | every symbol of a description is a qualified name of its meaning (`UseProofs.v`), and back through the resolution of the parsed file; for code: what fills a reference shows its qualifier before a dot (`CodeTokens.v`, `CodeUse.v`) |
| C101 | `SpecCode.v`: `items` scans the pieces of code with the references left open, `ref_tokens` says which tokens denote a reference under given imports, `fills` puts them in | lexer states at the borders of pieces (`CodeProofs.v`), arguments after the passes (`SourceProofs.v`), descriptions to blocks (`CodeUse.v`) |
| C102-C105 | `TemplateMemory.v`: `templates.go` with memory and fuel; `SpecTemplateMemory.v`: the tree that a value in memory stands for; `SpecTemplateShared.v`: the parts that are shared and those that are made anew | memory only grows (`TemplateMemoryProofs.v`); the walk over memory against the walk over the tree, with the structs, arrays and maps that are being filled hidden (`TemplateMemoryTree.v`); the new memory of each part, disjoint from that of the others (`TemplateMemoryShared.v`); `_refuted` witnesses |
| C106 | `SpecAppend.v`: a file cut to its first elements; a file written by elements | the run over the whole file and the run over the first elements side by side (`AppendProofs.v`); the text of what is qualified does not change when more is registered, since names given are kept (`AppendText.v`) |
| C107 | `SpecArgs.v`: what each kind of reference becomes under the names of the file; which arguments are left alone | every argument of the slice is visited, possibly several times, and the last result is what the final imports give (`SourceProofs.arg_after`); the description is a function of the argument, so that it is unchanged exactly if the description allows it (`ArgsProofs.v`) |
| C108 | `SpecOrder.v`: what a package is called when it is alone, requests that do not conflict, the same file with its elements in another order | without conflicts every registered package has the name it is called alone, an invariant (`OrderProofs.v`); the converse puts one or the other of two conflicting requests first; of files: the same operation later has the same result, so that each place of the world ends up with what the final imports give (`OrderText.v`); that the visits succeed in the other order too: what each results in can be told from the final imports (`FirmProofs.v`, `OrderTotal.v`) |
| C109 | `SpecLocal.v`: what a file sees (its parts, the arguments of its code, the types of methods among these, the files these were added to) and two worlds that agree in the parts, the names of the rest and the packages of the files | a relation between the two worlds - the same entries in all places seen, which differ from those at first in what qualifying may change only - that every step of qualifying keeps, with the same result in both (`LocalProofs.v`); then every text is read from such places, where every argument of code has been replaced by then (a ghost field of the relation); `LocalTemplates.v`: qualifying data without specs asks nothing of the program |
| C110 | `SpecLocal.v`: files that share nothing; files written one after the other with their texts (`texts_in_order`) | `OwnProofs.v`: every step of writing a file, also up to a panic, leaves what the file does not consist of, and the skeleton of the world, as they were (this is `C60_any`); `AloneProofs.v`: so writing another file keeps what this one sees, so C109 applies after any number of them; hence any order gives the texts of each file written first. Refuted for code that prints an embedded interface of another file |
| C111 | `SpecTried.v`: how many files a trace opens; what a list of files may change | `TriedProofs.v`: `C60_any` file by file, what belongs to each file being the same before and after the others; induction on WriteGoFiles with the trace |
| C112 | results of `source` before and after | `AgainProofs.v`: a call that qualifies ends later as it ended now, with a value or a panic; `bad`: a program made of visits (`good`, of C41-C43) that panics does so again without changing anything, since what it visited before the panic is settled; `AgainTheorems.v`: template data, programs, names |
| C113 | results of `source` before and after WriteGoFiles; the trace of a second call; `SpecRetry.v` | `RetryProofs.v`: `settled_as r`: the state is the same for the file (`same_for`, C109) as one in which writing it gives `r` and gives `r` again (C112); writing the file keeps this (`own_same`: two states that are the same for a file are so after writing it in both), and so does writing another file apart from it (C110); `RetryTemplates.v`: template data without specs |
| C114 | the imports after `EnsureTypeImported`, `EnsureAllTypesImported`, `source`; `SpecNil.v` (the symbols before the first nil, as an inductive relation on types, without the functions of the model) | `NilProofs.v`: `stops` (panics with the given calls made) and `passes` (returns with them made) compose; induction over the relation; `nil_complete`: a type that is well-formed but for nils is well-formed or related to some list |

No property is dismissed as inexpressible.  Concurrency is out of scope by the code's own contract
("Imports is not thread-safe").

## Tests of the model

`Golden.v` runs the repository's own tests (`imports_test.go`, `names_test.go`, and both end-to-end tests of `gopoet_test.go`
against the files in `test-outputs/`) on the model; `GoldenTypes.v` does so for `types_test.go`.  `seeded/LOG.jsonl` records wrong programs tried against the theorems.
There, `caught` means that with the wrong program the build fails; `failed` lists the declarations at which it fails, and
`claims_failed` the claims whose proofs use these.  That a proof no longer goes through does not show that the statement is
false of the wrong program: it may be one that only needs another proof (L20 leaves C113 true on all that was evaluated,
but not C111).  For the entries with `evaluated_false` (L1-L22, but for L7 and L8) the statements of C60 and C110-C113 were
also evaluated, with the wrong program, on three programs of two files and six ways in which writing may fail; the field
lists those that came out false, and is empty if none did.  Other entries have not been checked in this way.

## Trusted base

**Kernel.**  Coq 8.16.1's kernel (including `vm_compute`, used by some examples, `_refuted` witnesses and the sweep over
the case tables).  No plugin, no `Admitted`, no axiom, no switched-off check.

**Print Assumptions.**  Beneath each theorem in the `Prop*` files.  For every theorem in `MANIFEST.json` it prints
`Closed under the global context`: no axiom, neither of ours nor of the standard library (in particular no functional
extensionality).  `coqchk -o` lists seven `Coq.ssr.ssrunder.Under_rel` constants, parameters of a standard-library file
that `Lia` loads; no theorem depends on them.

**What is modelled.**  All Go source files of the package that hold code:

| source | model | remarks |
|---|---|---|
| `imports.go` | `Imports.v` (with memory: `Memory.v`) | everything |
| `types.go` 1-396, 640-end | `Types.v` | constructors, accessors, text |
| `types.go` 397-632, `model.go` 66-118 | `Conv.v` | conversions from go/types and reflect |
| `names.go` | `Names.v`, `UnicodeTables.v` | over the simple case mappings of Unicode 15.0 |
| `model.go`, `code.go` | `World.v` (writing to files: `Write.v`) | everything |
| `templates.go`, `templates_unsafe.go`, `templates_no_unsafe.go` | `Template.v` (with memory: `TemplateMemory.v`) | a flag says which of the last two is compiled in |

**What is trusted about the model.**  That it says what the Go code does; there is no Go semantics underneath.  The places
where it is knowingly simpler than the code are marked in the source by "Simplification"/"Simplified" and are:

* `TypeName`s and `Signature`s are immutable values everywhere except in `Memory.v`, which models `types.go` and the
  rewriting in `imports.go` a second time over a memory with shared objects and arrays.  C74 and C79 say that the value
  model is right about it as long as nobody writes to what they share; C78 that qualification in place (functions,
  interface methods) does not disturb this within a file; C75-C78 list the ways it goes wrong.  `World.v` itself uses the
  value model.  In `Memory.v` slices start at the first cell of their array.
* Pointer arguments to `Printf` (`*Package`, `*Symbol`, ...) are represented by what they point to, and are not nil.
* Recursion through the object graph takes fuel.  Object graphs on which the Go code recurses for ever (a named struct
  containing itself as a `*TypeSpec` field when qualified; cyclic template data) run out of it: most theorems about files
  assume that the result is not a panic.  C80, C81 and C87 say when the fuel suffices, and that without end of the
  recursion no amount does.
* Template data are finite trees except in `TemplateMemory.v`, where they may share memory and be cyclic.  The list at the head of `Template.v` applies.
* go/types: named types are leaves, and an interface receiver is only known to be one.
* The open function and the writers do not change the files being written.
* Messages of run-time panics (nil dereference, index out of range, reflect) are named, not reproduced.

**External behaviour, universally quantified.**  Theorems hold for every value of: `go/format.Source`, open, write and close
functions with arbitrary state (`Write.v`); `text/template` execution, `fmt` with flags, widths and other verbs or values
of foreign types, printability of non-ASCII runes (`Env` in `World.v`); `implements` between Go types (`Template.v`); the
iteration order of maps; `GOPATH` and the file system (`PropWrite.v`).

**Standard library, modelled from its documentation and trusted as such.**  `path.Base`, `filepath.Base`, `Ext`, `Clean`, `Join` and `Dir` (Unix),
`utf8.DecodeRuneInString`, `strconv.Quote` and `CanBackquote`, `strings.Split`, `sort.Slice` (keys are distinct, so the order decides),
`unicode.ToUpper`, `ToLower`, `IsUpper` and the like, `fmt` on plain verbs, `reflect` on values in `Template.v`.

**The specifications.**  The lexers and grammars of Go used in the statements (`SpecGo`, `SpecLit`, `SpecFile`, `SpecDecl`, `SpecDoc`)
are ours, written from the Go specification.  Simplified there: function bodies and initialisers are token lists (balanced,
not parsed as statements); identifiers are ASCII letters, digits and underscore, and bytes from 128 on count as letters;
automatic semicolons follow the specification's rule on the last token of a line.  Generics are not covered (the
pinned commit predates them).
