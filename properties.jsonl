{"id": "C01", "title": "Distinct imported packages never share a prefix", "statement": "After any sequence of calls on an Imports, two different import paths that are both registered have different prefixes (PrefixForPackage returns different strings), so a qualified reference never names two packages.", "quantifier": "every Imports created by NewImportsFor and every finite history of RegisterImport / RegisterImportForPackage / EnsureImported / EnsureTypeImported / EnsureAllTypesImported / Qualify* / PrefixForPackage / ImportSpecs calls with arbitrary arguments", "why_tests_cant": "collisions depend on the order and mix of package names over unbounded histories (e.g. registering foo, foo, foo1, foo)", "anchors": ["imports.go:Imports.prefixForPackage", "imports.go:Imports.RegisterImport"]}
{"id": "C02", "title": "A registered prefix is stable forever", "statement": "Once RegisterImport has returned prefix p for an import path, every later RegisterImport (whatever package name is passed) and PrefixForPackage for that path returns exactly p, no matter which calls happen in between.", "quantifier": "every reachable Imports, every path, every later history", "why_tests_cant": "stability must survive every later history, not the few a test replays", "anchors": ["imports.go:Imports.prefixForPackage"]}
{"id": "C03", "title": "Importing a package into itself is a no-op", "statement": "RegisterImport/PrefixForPackage with the file's own package path returns the empty prefix, changes nothing, and the own path never appears in ImportSpecs.", "quantifier": "every history and every package name argument", "why_tests_cant": "absence from ImportSpecs must hold after every history", "anchors": ["imports.go:Imports.prefixForPackage", "imports.go:Imports.ImportSpecs"]}
{"id": "C04", "title": "Lookup-only calls never register and panic exactly on unregistered packages", "statement": "PrefixForPackage, Qualify, QualifyType and QualifySignature never change the Imports; each panics if and only if it reaches a package that is neither the own package nor registered, and otherwise returns what the registering variant would return.", "quantifier": "every reachable Imports and every symbol, type, signature", "why_tests_cant": "types are unboundedly nested; both directions of the panic condition are universal", "anchors": ["imports.go:Imports.PrefixForPackage", "imports.go:Imports.Qualify", "imports.go:Imports.QualifyType", "imports.go:Imports.QualifySignature"]}
{"id": "C05", "title": "ImportSpecs is a sorted, duplicate-free, complete and deterministic listing", "statement": "ImportSpecs lists exactly the registered paths, each once, strictly increasing by import path, and the list is the same for every map iteration order the runtime may pick.", "quantifier": "every history and every iteration order of the underlying map", "why_tests_cant": "map iteration order is chosen by the runtime; a test sees one order per run", "anchors": ["imports.go:Imports.ImportSpecs"]}
{"id": "C06", "title": "An import statement carries an alias exactly when it needs one", "statement": "ImportSpecs gives a path no alias exactly when the prefix in use is the (non-empty) package name supplied at its first registration; otherwise the alias listed is the prefix in use. Packages registered with an unknown (empty) name always get an alias.", "quantifier": "every history", "why_tests_cant": "depends on which registration came first in an arbitrary history", "anchors": ["imports.go:Imports.prefixForPackage", "imports.go:Imports.ImportSpecs"]}
{"id": "C07", "title": "The chosen name is the least free candidate and the search terminates", "statement": "Registering a new path always terminates and picks the package name (or the path's base name if the name is empty) when free, else that name followed by the least k>=1 that is free; all previously registered paths keep their entries.", "quantifier": "every Imports state reachable by any history, every path and name", "why_tests_cant": "termination of an unbounded search loop and minimality over all states", "anchors": ["imports.go:Imports.prefixForPackage"]}
{"id": "C08", "title": "EnsureImported only rewrites the package name", "statement": "EnsureImported returns a symbol with the same Name and ImportPath; its String() is the registered prefix followed by Name; own-package symbols print unqualified; a symbol with a zero Package is returned untouched and registers nothing.", "quantifier": "every Imports state and every symbol", "why_tests_cant": "arbitrary strings in every field (including names ending in '.')", "anchors": ["imports.go:Imports.EnsureImported", "imports.go:Imports.qualify", "model.go:Symbol.String"]}
{"id": "C09", "title": "EnsureTypeImported preserves the type and fixes every prefix", "statement": "The type returned by EnsureTypeImported has the same shape, kinds, lengths, directions, tags, argument/field/method names, variadic flags and the same (import path, name) at every named leaf; each named leaf carries exactly the prefix under which its package is registered in the resulting Imports.", "quantifier": "every reachable Imports and every type of any depth", "why_tests_cant": "induction over unbounded recursive types with mutable state threaded through", "anchors": ["imports.go:Imports.qualifyType", "imports.go:Imports.qualifySignature", "imports.go:Imports.qualifyFields", "imports.go:Imports.qualifyMethods", "imports.go:Imports.qualifySymbols"]}
{"id": "C10", "title": "EnsureTypeImported registers exactly the packages the type mentions", "statement": "After EnsureTypeImported(t) the registered paths are the previously registered ones plus exactly the non-own packages occurring in t; nothing else is added, nothing is removed or re-aliased.", "quantifier": "every reachable Imports and every type", "why_tests_cant": "both inclusions over unbounded types", "anchors": ["imports.go:Imports.qualifyType", "imports.go:Imports.EnsureTypeImported"]}
{"id": "C11", "title": "Qualification is idempotent and allocates nothing when nothing changes", "statement": "Qualifying an already qualified type with the same Imports (even after further registrations) returns the identical TypeName (== in Go) and leaves the Imports unchanged; a new TypeName is returned only if it differs structurally from its argument.", "quantifier": "every reachable Imports, type and later history", "why_tests_cant": "identity of results over all types and later histories", "anchors": ["imports.go:Imports.qualifyType", "imports.go:sameSlice"]}
{"id": "C12", "title": "Generated type text means the original type in the generated file", "statement": "If every package name supplied is the package's real name, then the text of a type qualified for a file, parsed by the Go type grammar and with its qualifiers resolved through that file's import list, denotes the original type with the original import paths.", "quantifier": "every reachable Imports, every well-formed type whose identifiers are legal Go identifiers (chan-of-receive-chan and embeds-plus-methods interfaces excluded, see C20, C21)", "why_tests_cant": "end-to-end composition (aliasing + rendering + parsing) over unbounded types and histories", "anchors": ["imports.go:Imports.EnsureTypeImported", "imports.go:Imports.ImportSpecs", "types.go:typeNameToBuffer"]}
{"id": "C13", "title": "Chosen aliases are legal Go identifiers", "statement": "Registering a package by import path with unknown name yields a prefix that is a legal Go identifier followed by a dot, so the resulting code compiles (as the NewPackage documentation promises).", "quantifier": "every import path", "why_tests_cant": "all import paths; counterexamples are paths whose base has a dot, dash or leading digit", "anchors": ["model.go:NewPackage", "imports.go:Imports.prefixForPackage"]}
{"id": "C14", "title": "A type qualified for one file can be re-qualified for another", "statement": "Passing the result of EnsureTypeImported for one Imports to EnsureTypeImported of another yields text that resolves, through the second file's import list, to the original packages.", "quantifier": "every pair of Imports histories and every type", "why_tests_cant": "needs two interacting histories; fails only when the first file aliased the package", "anchors": ["imports.go:Imports.prefixForPackage", "imports.go:Imports.EnsureTypeImported"]}
{"id": "C15", "title": "TypeName constructors and accessors agree", "statement": "For every constructor, Kind() and the accessors return exactly what was supplied, and every accessor that is not applicable to the kind returns its documented zero (nil, -1, 0, Invalid, empty symbol).", "quantifier": "every constructor argument", "why_tests_cant": "all component types, lengths, directions", "anchors": ["types.go:PointerType", "types.go:SliceType", "types.go:ArrayType", "types.go:MapType", "types.go:ChannelType", "types.go:FuncTypeFromSig", "types.go:StructType", "types.go:InterfaceType"]}
{"id": "C16", "title": "TypeName constructors reject exactly the invalid inputs", "statement": "BasicType panics iff the kind is not basic (UnsafePointer yields the named unsafe.Pointer); PointerType/SliceType/MapType panic iff given nil; ArrayType iff nil or negative length; ChannelType iff nil or a direction outside the valid bits (0 means both); FuncTypeFromSig iff some argument or result type is nil or it is variadic and the last argument is not a slice.", "quantifier": "every argument", "why_tests_cant": "both directions of each panic condition over all inputs", "anchors": ["types.go:BasicType", "types.go:ChannelType", "types.go:ArrayType", "types.go:FuncTypeFromSig"]}
{"id": "C17", "title": "String() of a type is total on well-formed types and consistent with nested rendering", "statement": "String() never panics for a type without nil components whose variadic signatures end in a slice, and String() equals the text the same type produces when nested in another type.", "quantifier": "every type", "why_tests_cant": "unbounded nesting", "anchors": ["types.go:typeNameToString", "types.go:typeNameToBuffer"]}
{"id": "C18", "title": "Rendered types parse back to the same type", "statement": "The text of a well-formed type, read by Go's type grammar, is exactly that type: same structure, lengths, directions, qualifiers, parameter names, variadic marker and struct tags. Two well-formed types with the same text are the same type up to byte/uint8, rune/int32 and '_' for missing parameter names.", "quantifier": "every type whose identifiers are legal, outside the two defective shapes of C20 and C21", "why_tests_cant": "round trip over an unbounded recursive grammar", "anchors": ["types.go:typeNameToBuffer", "types.go:signatureToBuffer"]}
{"id": "C19", "title": "Signature text names parameters all-or-nothing and marks only the last variadic", "statement": "In the text of a signature either no parameter is named or every parameter is named, with '_' for unnamed ones (same for results, independently); '...' appears on the last parameter exactly if the signature is variadic; results are parenthesised exactly if there is more than one or some is named.", "quantifier": "every signature", "why_tests_cant": "all mixes of named/unnamed parameters of any length", "anchors": ["types.go:signatureToBuffer"]}
{"id": "C20", "title": "A bidirectional channel of receive-only channels keeps its direction", "statement": "The text of ChannelType(ChannelType(T, RecvDir), BothDir) denotes that type.", "quantifier": "every element type T", "why_tests_cant": "needs the Go grammar's 'leftmost chan' rule; no golden test covers nested channels", "anchors": ["types.go:typeNameToBuffer"]}
{"id": "C21", "title": "An unnamed interface with embeds and methods renders both", "statement": "The text of InterfaceType(embeds, methods...) with at least one of each denotes an interface with those embeds and those methods.", "quantifier": "every non-empty embeds and methods lists", "why_tests_cant": "the separator is missing only when both lists are non-empty; no test renders that text", "anchors": ["types.go:typeNameToBuffer"]}
{"id": "C22", "title": "Struct tags survive rendering byte for byte", "statement": "The Go string literal emitted for a struct tag (raw or quoted) evaluates to exactly the tag's bytes, for every byte string including invalid UTF-8, control characters and backquotes.", "quantifier": "every byte string and every classification of non-ASCII printable runes", "why_tests_cant": "all byte strings", "anchors": ["types.go:typeNameToBuffer", "model.go:FieldSpec.writeTo"]}
{"id": "C23", "title": "TypeNameForGoType is faithful", "statement": "Converting a go/types type yields a TypeName with the same structure, names, import paths, lengths, directions, tags, embedded-field status and variadic flags; a method signature with a non-interface receiver gets the receiver as first argument.", "quantifier": "every go/types type built from named types with a package, typed basics, and the composite constructors", "why_tests_cant": "unbounded recursive types", "anchors": ["types.go:TypeNameForGoType", "types.go:signatureFromGoType", "types.go:argsTypesForGoType"]}
{"id": "C24", "title": "TypeNameForGoType accepts every representable Go type", "statement": "TypeNameForGoType does not panic on a type that Go source can denote (in particular on types mentioning the predeclared error).", "quantifier": "every valid go/types type", "why_tests_cant": "exact characterisation of the panicking set", "anchors": ["types.go:TypeNameForGoType", "model.go:PackageForGoType"]}
{"id": "C25", "title": "TypeNameForReflectType is faithful", "statement": "Converting a reflect.Type yields a TypeName with the same structure: named types keep (package path, name), and pointers, slices, arrays, channels, functions without results, interfaces and structs without embedded fields keep their components.", "quantifier": "every reflect type in that fragment", "why_tests_cant": "unbounded recursive types", "anchors": ["types.go:TypeNameForReflectType", "types.go:signatureFromReflectType"]}
{"id": "C26", "title": "TypeNameForReflectType accepts every reflect type", "statement": "TypeNameForReflectType does not panic on function types with results or on map types, and keeps function results as results.", "quantifier": "every reflect type", "why_tests_cant": "the unit test for this function is a TODO; the failing set is infinite and needs an exact description", "anchors": ["types.go:TypeNameForReflectType", "types.go:signatureFromReflectType"]}
{"id": "C27", "title": "Export changes only the first rune, as documented", "statement": "Export keeps everything after the first rune; an already upper-case name is returned unchanged, a leading '_' becomes 'X', a first rune with a different upper-case form is replaced by it, anything else gets the prefix 'X'; the empty string is returned unchanged.", "quantifier": "every string that starts with valid UTF-8 and every case table", "why_tests_cant": "all strings", "anchors": ["names.go:Export"]}
{"id": "C28", "title": "Export yields an exported name and is idempotent", "statement": "Export(s) starts with an upper-case letter for every non-empty valid s, and Export(Export(s)) = Export(s).", "quantifier": "every valid UTF-8 string", "why_tests_cant": "Unicode has letters-like runes whose upper-case form is not an upper-case letter", "anchors": ["names.go:Export"]}
{"id": "C29", "title": "Unexport yields an unexported name and is idempotent", "statement": "Unexport lower-cases only the first rune, is idempotent, and its result is not exported.", "quantifier": "every valid UTF-8 string", "why_tests_cant": "Unicode has upper-case letters without lower-case form", "anchors": ["names.go:Unexport"]}
{"id": "C30", "title": "Export and Unexport reject exactly invalid UTF-8", "statement": "Export and Unexport panic if and only if the string does not start with valid UTF-8.", "quantifier": "every byte string", "why_tests_cant": "all byte strings; U+FFFD itself is the boundary case", "anchors": ["names.go:Export", "names.go:Unexport"]}
{"id": "C31", "title": "Comments can never leak into code", "statement": "The text emitted for a comment consists of complete lines each starting with '//', one per line of the comment, and removing the markers gives back the comment; an empty comment emits nothing.", "quantifier": "every comment string", "why_tests_cant": "injection safety is a for-all-strings claim", "anchors": ["model.go:writeComment"]}
{"id": "C32", "title": "NewGoFile accepts exactly base names ending in .go", "statement": "NewGoFile panics unless the file name contains no '/' and ends in '.go', and never panics otherwise.", "quantifier": "every file name (Unix path rules)", "why_tests_cant": "all strings", "anchors": ["model.go:NewGoFile"]}
{"id": "C33", "title": "Declarations render in the documented grouped or single form", "statement": "A const/var/type declaration with more than one spec or a declaration comment renders as a parenthesised group with each spec's comment above it; otherwise as the single form with the spec's comment above the keyword; specs appear in order, each exactly once.", "quantifier": "every declaration with at least one spec", "why_tests_cant": "any number of specs with any comments", "anchors": ["model.go:ConstDecl.writeTo", "model.go:VarDecl.writeTo", "model.go:TypeDecl.writeTo", "model.go:ConstSpec.writeTo"]}
{"id": "C34", "title": "Symbols of declared elements carry the file's package and the documented panics", "statement": "ToSymbol/SymbolAt on consts, vars, types and funcs return the element's name with the package of the file it was added to, and panic exactly when unattached, out of range, unnamed, or when the spec does not have exactly one name; String() on them never panics and equals the symbol's text (or the bare name when unattached).", "quantifier": "every spec, attached or not", "why_tests_cant": "all name lists, both directions of the panic condition", "anchors": ["model.go:ConstSpec.ToSymbol", "model.go:ConstSpec.SymbolAt", "model.go:ConstSpec.String", "model.go:VarSpec.ToSymbol", "model.go:TypeSpec.ToSymbol", "model.go:FuncSpec.ToSymbol"]}
{"id": "C35", "title": "Method types get their receiver as first argument", "statement": "ToTypeName of a method (FuncSpec with receiver, InterfaceMethod) is the function type with the receiver (pointer if declared so) prepended and all other arguments, results and the variadic flag unchanged; for a plain function it is the function's own signature.", "quantifier": "every signature and receiver", "why_tests_cant": "all signatures", "anchors": ["model.go:FuncSpec.ToTypeName", "model.go:InterfaceMethod.ToTypeName"]}
{"id": "C36", "title": "Receivers are only made from named types", "statement": "NewReceiverForType / NewPointerReceiverForType succeed exactly for named types (and, for the former, pointers to named types) and record the type's bare name and pointer-ness.", "quantifier": "every type or type spec", "why_tests_cant": "both directions over all types", "anchors": ["model.go:NewReceiverForType", "model.go:NewPointerReceiverForType", "model.go:NewReceiver", "model.go:NewPointerReceiver"]}
{"id": "C37", "title": "Print and Println emit text verbatim", "statement": "Print(text) contributes exactly text and Println(text) exactly text plus newline to the rendered code, whatever '%' or other characters text contains.", "quantifier": "every text", "why_tests_cant": "all strings, including those that look like format directives", "anchors": ["code.go:CodeBlock.Print", "code.go:CodeBlock.Println", "code.go:line.writeTo"]}
{"id": "C38", "title": "Code blocks render as the concatenation of their parts", "statement": "A code block renders as the in-order concatenation of its elements; AddCode appends the other block's elements as they are at the time of the call.", "quantifier": "every sequence of builder calls", "why_tests_cant": "all builder sequences", "anchors": ["code.go:CodeBlock.AddCode", "code.go:CodeBlock.writeTo", "code.go:CodeBlock.Printf"]}
{"id": "C39", "title": "References in code blocks are rendered with the file's prefixes", "statement": "After qualification every %s of a Package, Symbol, MethodReference, Signature, TypeName, *ConstSpec, *VarSpec, *TypeSpec, plain *FuncSpec, reflect.Type, types.Type, non-method types.Object or *types.Package argument prints the reference with exactly the prefix registered in the file's imports (nothing for the file's own package), and that package is in the import list.", "quantifier": "every argument list and every reachable Imports", "why_tests_cant": "all arguments and histories", "anchors": ["code.go:line.qualify", "code.go:line.writeTo"]}
{"id": "C40", "title": "References to methods print the same method expression whatever the aliasing", "statement": "A *InterfaceMethod, method *FuncSpec or method types.Object used as a code argument prints Type.Method with the file's prefix for Type, whether or not the package needed an alias.", "quantifier": "every method reference and every Imports", "why_tests_cant": "only wrong when the prefix equals the original package name", "anchors": ["code.go:line.qualify", "model.go:InterfaceMethod.String", "model.go:FuncSpec.String"]}
{"id": "C41", "title": "A generated file imports every package its declarations reference", "statement": "After a file is written, every package mentioned by the types of its consts, vars, types, funcs and by its code arguments is either the file's own package or in the emitted import list, under the prefix used in the text.", "quantifier": "every file built from named types and code blocks", "why_tests_cant": "all files", "anchors": ["model.go:WriteGoFile", "model.go:ConstDecl.qualify", "model.go:TypeSpec.qualify", "model.go:FuncSpec.qualify"]}
{"id": "C42", "title": "A field, const or var whose type is a declared TypeSpec is rendered relative to the file", "statement": "A const, var or struct field whose type is a named *TypeSpec of the same file renders the bare type name, and one of another package renders with that package imported.", "quantifier": "every spec and file", "why_tests_cant": "no test uses a named *TypeSpec as a type", "anchors": ["model.go:qualifyType", "model.go:ConstSpec.writeTo", "model.go:FieldSpec.writeTo"]}
{"id": "C43", "title": "Writing a file twice gives the same text", "statement": "WriteGoFile applied twice to the same file (without template code) produces identical output and identical imports.", "quantifier": "every file without RenderCode elements", "why_tests_cant": "rendering mutates the model; idempotence must hold for every model", "anchors": ["model.go:WriteGoFile", "code.go:line.qualify"]}
{"id": "C44", "title": "Sharing a code block or type between files is safe", "statement": "A code block, spec or type used in two files renders correctly in both, in whichever order they are written.", "quantifier": "every pair of files sharing elements", "why_tests_cant": "needs an alias in one of the files and a particular write order", "anchors": ["code.go:line.qualify", "code.go:CodeBlock.AddCode", "imports.go:Imports.prefixForPackage"]}
{"id": "C45", "title": "Rendering a type spec matches its underlying type", "statement": "The declaration rendered for NewTypeSpec(name, T) has exactly T's fields (with tags) or embeds and methods in order, or T's text; aliases render '='.", "quantifier": "every TypeName T", "why_tests_cant": "all struct and interface shapes", "anchors": ["model.go:NewTypeSpec", "model.go:TypeSpec.writeTo", "model.go:TypeSpec.writeUnderlying", "model.go:FieldSpec.writeTo"]}
{"id": "C46", "title": "WriteGoFiles processes files in order and stops at the first error", "statement": "WriteGoFiles opens, writes and closes the files in argument order; on the first error (open, render/format, or write) it returns that error and touches no later file; it returns nil only if every file was written.", "quantifier": "every file list and every behaviour of the open function, formatter and writers", "why_tests_cant": "all failure points", "anchors": ["model.go:WriteGoFiles"]}
{"id": "C47", "title": "Every opened writer is closed exactly once", "statement": "Every writer successfully returned by the open function is closed exactly once, after its write and before the next file is opened, also when formatting or writing fails.", "quantifier": "every file list and every failure pattern, including panics while rendering", "why_tests_cant": "all crash/failure points", "anchors": ["model.go:WriteGoFiles"]}
{"id": "C48", "title": "Nothing unformatted is ever written", "statement": "At most one Write is issued per file and it carries the complete formatted source; if rendering panics or formatting fails nothing is written and a FormatError carries the complete unformatted source.", "quantifier": "every file and formatter behaviour", "why_tests_cant": "all failure patterns", "anchors": ["model.go:WriteGoFile", "model.go:FormatError"]}
{"id": "C49", "title": "Files land below the root at importPath/name", "statement": "WriteGoFilesToFileSystem writes each file at root/importPath/name (lexically cleaned); the path stays under root, and different (package path, name) pairs give different paths.", "quantifier": "every root, package path without '..' elements, and file name accepted by NewGoFile", "why_tests_cant": "all paths", "anchors": ["model.go:WriteGoFiles", "model.go:WriteGoFilesToFileSystem"]}
{"id": "C50", "title": "WriteGoFilesToGoPath writes under the first GOPATH entry", "statement": "With a non-empty GOPATH, WriteGoFilesToGoPath writes the files below its first entry.", "quantifier": "every GOPATH value and file list", "why_tests_cant": "the function is never exercised; the guard is inverted for every value", "anchors": ["model.go:WriteGoFilesToGoPath"]}
{"id": "C51", "title": "A failed close is reported", "statement": "If closing a writer fails (buffered data lost), WriteGoFiles reports an error.", "quantifier": "every writer behaviour", "why_tests_cant": "needs fault injection at every point", "anchors": ["model.go:WriteGoFiles"]}
{"id": "C52", "title": "Template data without package references is returned as is", "statement": "QualifyTemplateData on data that contains no package reference outside the file's own names returns the same value, registers nothing and does not panic; nil gives nil.", "quantifier": "every data value tree", "why_tests_cant": "all shapes of data", "anchors": ["imports.go:Imports.QualifyTemplateData", "templates.go:qualifyTemplateData"]}
{"id": "C53", "title": "Template data keeps its shape and all references are re-qualified", "statement": "QualifyTemplateData returns data of the same shape in which every Package, Symbol, MethodReference, Signature and TypeName (also inside interfaces, pointers, slices, maps and exported struct fields) carries the prefix registered in the Imports; the original data is not modified.", "quantifier": "every data tree of supported shapes, every reachable Imports", "why_tests_cant": "all shapes", "anchors": ["templates.go:qualifyTemplateData"]}
{"id": "C54", "title": "QualifyTemplateData never panics on ordinary data", "statement": "QualifyTemplateData does not panic on arrays, on structs with unexported fields or on pointers to interfaces.", "quantifier": "every data tree", "why_tests_cant": "depends on addressability of nested reflect values", "anchors": ["templates.go:qualifyTemplateData", "templates_unsafe.go:getField"]}
{"id": "C55", "title": "Qualified template data is deterministic", "statement": "The result of QualifyTemplateData and the aliases it registers do not depend on the runtime's map iteration order, and no map entry is lost.", "quantifier": "every data tree with maps and every iteration order", "why_tests_cant": "iteration order is chosen by the runtime", "anchors": ["templates.go:qualifyTemplateData"]}
{"id": "C56", "title": "go/types values in template data are rendered with the file's prefixes", "statement": "A types.Type, types.Object, *types.Package or reflect.Type stored in an interface{} of the template data is replaced by a value that prints with the file's prefix, whether or not the prefix differs from the package name.", "quantifier": "every such value and Imports", "why_tests_cant": "only wrong in the common case where no alias is needed", "anchors": ["templates.go:qualifyTemplateData"]}
{"id": "C57", "title": "Rendering template code twice is safe", "statement": "Qualifying template data that has already been qualified (writing a file twice) changes nothing.", "quantifier": "every data tree including spec structs", "why_tests_cant": "the rewritten spec forgets its import path; needs a second pass", "anchors": ["templates.go:qualifyTemplateData", "code.go:templ.qualify"]}
{"id": "C58", "title": "SymbolForGoObject names the object", "statement": "A package-level constant, variable, type or function becomes the symbol (its package, its name); a method of a named type T or *T becomes the method reference (T's symbol, method name); an object without a package panics.", "quantifier": "every go/types object", "why_tests_cant": "no test covers it; quantifies over all objects and receiver types", "anchors": ["model.go:SymbolForGoObject", "model.go:PackageForGoType"]}
{"id": "C59", "title": "A generated file parses to what was built", "statement": "If every name, type, tag and code block of a file is expressible, the text GoFile.writeTo produces is accepted by Go's file grammar and parses to exactly the package name, imports, declarations, signatures and function bodies that were built, in order; comments never change this.", "quantifier": "every file, element list, comment text and type", "why_tests_cant": "quantifies over all programs the builder can make; go/format checks one file at a time and only for syntax", "anchors": ["model.go:GoFile.writeTo", "model.go:FuncSpec.writeTo", "model.go:TypeSpec.writeTo", "model.go:ConstSpec.writeTo", "model.go:VarSpec.writeTo"]}
{"id": "C60", "title": "Writing a file changes nothing outside that file", "statement": "WriteGoFile changes, apart from the text it returns, only the import table of that file and the types, signatures, code arguments and template data of the declarations that belong to it: every other file, declaration, code block and argument list is as before.", "quantifier": "every set of files and declarations, any templates and any imports, also when writing panics", "why_tests_cant": "quantifies over all other objects alive; tests only look at the file they write", "anchors": ["model.go:WriteGoFile", "model.go:TypeSpec.qualify", "model.go:FuncSpec.qualify", "code.go:CodeBlock.qualify", "code.go:line.qualify"]}
{"id": "C61", "title": "The package idiom Printf(\"%s.Name\", pkg) denotes pkg's Name", "statement": "A Package argument followed in the code by a dot and a name is written so that it denotes that name in that package (model.go:54-60).", "quantifier": "every package, name, file and import history", "why_tests_cant": "the wrong case needs the file's own package", "anchors": ["model.go:Package.String", "code.go:line.qualify"]}
{"id": "C62", "title": "A written file means what was built", "statement": "If no const, var or field has a declared TypeSpec as its type, the text of a written file parses, and when every qualifier in its types is resolved through the file's own import list the declarations are exactly the ones built, with every type naming the package it was built with (and unqualified exactly for the file's own package).", "quantifier": "every file with honest and usable package names, every import history and alias clash", "why_tests_cant": "end-to-end: quantifies over all declarations, all alias clashes and all imports", "anchors": ["model.go:WriteGoFile", "model.go:GoFile.writeTo", "imports.go:Imports.EnsureTypeImported"]}
{"id": "C63", "title": "The builder calls build what they are told", "statement": "Building a file by the calls of the package (NewGoFile, NewConst, NewStructTypeSpec, NewMethod, AddArg, Printlnf, AddElement and the rest) following a description gives a file with exactly the described package, comments, declarations in order, group members, fields, tags, interface elements, receivers, signatures and variadic flags; every declaration belongs to that file; every code block contains exactly the planned formats, arguments and templates in order; and no object that existed before changes.", "quantifier": "every description, however deeply nested, in every state", "why_tests_cant": "quantifies over all sequences of builder calls that follow a description; tests build a handful of files", "anchors": ["model.go:NewGoFile", "model.go:GoFile.AddElement", "model.go:NewTypeSpec", "model.go:NewStructTypeSpec", "model.go:NewInterfaceTypeSpec", "model.go:FuncSpec.AddArg", "types.go:Signature.AddArg", "code.go:CodeBlock.AddCode"]}
{"id": "C64", "title": "From description to text", "statement": "If a file is built by the calls of the package following a description and then written, and the names of the packages it mentions are right and usable, the text parses and, resolved through its own import list, means exactly what the description says, without any reference to the objects in between.", "quantifier": "every description without template code, every state, every environment", "why_tests_cant": "end-to-end over all builder programs", "anchors": ["model.go:NewGoFile", "model.go:WriteGoFile", "model.go:GoFile.writeTo"]}
{"id": "C65", "title": "Comments stand directly above what they document", "statement": "In a written file every comment given for the file, the package, a group, a const, var, type, field, interface element or function appears as comment lines with exactly its lines, in order, directly above the declaration it was given for (the file comment detached from the package clause by an empty line), never inside code and never swallowing any; the canonical import path stands behind the package clause; comments in code blocks stay where they were; there are no other comments.", "quantifier": "every file whose contents are expressible, every comment text including line breaks", "why_tests_cant": "quantifies over all comment texts and all places; gofmt moves comments silently and go vet does not know what was intended", "anchors": ["model.go:writeComment", "model.go:GoFile.writeTo", "model.go:FieldSpec.writeTo", "model.go:TypeSpec.writeTo", "model.go:FuncSpec.writeTo"]}
{"id": "C66", "title": "Import specs print as Go import specs", "statement": "The text \"import \" followed by ImportSpec.String() is a Go import declaration that parses to exactly the spec's alias (or none) and path.", "quantifier": "every list of import specs with legal aliases, every path byte string", "why_tests_cant": "quantifies over all paths, including ones that need escaping", "anchors": ["imports.go:ImportSpec.String"]}
{"id": "C67", "title": "Every member of a declaration in a file can be referred to", "statement": "Every const, var, type and func of a declaration that is part of a file has a symbol with the package of that file.", "quantifier": "every declaration, whenever its members are added", "why_tests_cant": "the order of the calls matters: the wrong case needs a member added after the group", "anchors": ["model.go:GoFile.AddElement", "model.go:ConstDecl.AddConst", "model.go:VarDecl.AddVar", "model.go:TypeDecl.AddType", "model.go:ConstDecl.setParent"]}
{"id": "C68", "title": "Methods of a named interface type in a file can be referred to", "statement": "ToMethodRef on every method of a named interface type that was added to a file gives that type's symbol and the method's name.", "quantifier": "every way of making the type", "why_tests_cant": "the wrong case needs a named type made from an unnamed spec", "anchors": ["model.go:NewTypeSpec", "model.go:NewInterfaceTypeSpec", "model.go:InterfaceMethod.ToMethodRef"]}
{"id": "C69", "title": "A package named by its path gets the path's last element", "statement": "NewPackage gives the last element of the import path as name and the path unchanged; NewSymbol the same with the symbol's name.", "quantifier": "every import path", "why_tests_cant": "all paths of any depth", "anchors": ["model.go:NewPackage", "model.go:NewSymbol"]}
{"id": "C70", "title": "Every declaration can be written", "statement": "Writing a const, var or type declaration never panics, whatever number of specs and whatever comment it has.", "quantifier": "every declaration including those without specs", "why_tests_cant": "tests only write non-empty declarations", "anchors": ["model.go:ConstDecl.writeTo", "model.go:VarDecl.writeTo", "model.go:TypeDecl.writeTo"]}
{"id": "C71", "title": "The comments asked for are the comments written", "statement": "In the text written for a file built by the package's calls, the comments are exactly those of the description in order, each with its lines, above the declaration, member or clause it was given to (an embedded field or interface being recognised by the name its package has in the file), next to those in the code; qualification and import changes lose, add or move none.", "quantifier": "every description of a file, every nesting of its types, every set of packages", "why_tests_cant": "a test has one set of comments; lost or moved comments need all kinds of members, nested types and renamed packages", "anchors": ["model.go:ConstSpec", "model.go:FieldSpec", "model.go:TypeSpec", "model.go:InterfaceElement", "model.go:FuncSpec", "model.go:writeComment"]}
{"id": "C72", "title": "Setter calls change one attribute each; their order matters only per attribute", "statement": "Each Set/Add call on an existing builder object returns and changes exactly the attribute it is about (a comment, a type, an initialiser, a tag, the arguments, the results, the variadic flag, the members, the file texts): every other attribute of every object and everything else stays. So two sequences of calls which agree, for each attribute, on the calls about it leave the same state.", "quantifier": "every state, every object, every sequence of setter calls", "why_tests_cant": "a test makes the calls in one order; an attribute dropped by another setter shows only in one order", "anchors": ["model.go:FieldSpec.SetComment", "model.go:FieldSpec.SetTag", "model.go:ConstSpec.SetType", "model.go:VarSpec.SetInitializer", "model.go:FuncSpec.AddArg", "model.go:InterfaceMethod.SetVariadic", "model.go:TypeDecl.AddType"]}
{"id": "C73", "title": "A type declared from another type's spec", "statement": "NewTypeSpec and NewTypeAlias given the spec of a type declared in a file do the same as given that type's name (no members are taken over); given a named spec in no file they panic and change nothing; given an unnamed spec they make a new spec which is written with the new name and whatever the unnamed spec is written with, now and after later changes to its members, leaving everything else.", "quantifier": "every state, every spec, every name", "why_tests_cant": "members taken over from a named type are invisible in the text and show only as needless imports", "anchors": ["model.go:NewTypeSpec", "model.go:NewTypeAlias", "model.go:TypeSpec.ToTypeName"]}
{"id": "C74", "title": "Importing or qualifying a type changes no existing type", "statement": "EnsureTypeImported, QualifyType, EnsureAllTypesImported and QualifySignature write to nothing that existed before the call: whatever objects and arrays types and signatures share, every TypeName and Signature still stands for the same type afterwards. The result stands for the renamed type, and it is the very object given exactly if nothing in it is renamed.", "quantifier": "every memory, every sharing between types, every type that is not cyclic, every import state", "why_tests_cant": "a test inspects the result, not every type that shares a slice with the argument", "anchors": ["imports.go:Imports.qualifyType", "imports.go:Imports.qualifySignature", "imports.go:Imports.qualifyArgs", "imports.go:Imports.qualifyFields", "imports.go:Imports.qualifyMethods", "imports.go:sameSlice"]}
{"id": "C75", "title": "Types cannot be changed through what their accessors return or through what they were made of", "statement": "Writing to the slices returned by Fields(), Methods() and Embeds(), to the signature returned by Signature(), or to the slices a type was made from changes no type.", "quantifier": "every type, every write", "why_tests_cant": "tests do not write to returned or passed slices", "anchors": ["types.go:structTypeName.Fields", "types.go:interfaceTypeName.Methods", "types.go:interfaceTypeName.Embeds", "types.go:funcTypeName.Signature", "types.go:StructType"]}
{"id": "C76", "title": "The type of a function does not change with the function", "statement": "The TypeName returned by FuncSpec.ToTypeName and InterfaceMethod.ToTypeName has the receiver (if any) and the parameters and results of that moment, and keeps them whatever is added to the function later.", "quantifier": "every function, method and interface method, every later sequence of AddArg, AddResult and SetVariadic", "why_tests_cant": "needs calls on the function after its type was taken", "anchors": ["model.go:FuncSpec.ToTypeName", "model.go:InterfaceMethod.ToTypeName", "types.go:FuncTypeFromSig"]}
{"id": "C77", "title": "Adding to a signature changes that signature only", "statement": "AddArg, AddResult and SetVariadic change the signature they are called on as said and no other signature or type (except types that contain that very signature).", "quantifier": "every memory, every sharing of arrays, every capacity the run-time system leaves", "why_tests_cant": "depends on the spare capacity of slices shared between copies of a signature", "anchors": ["types.go:Signature.AddArg", "types.go:Signature.AddResult", "types.go:Signature.SetVariadic", "model.go:NewTypeSpec", "model.go:FuncSpec.ToTypeName"]}
{"id": "C78", "title": "Types shared between the parts of files are written rightly", "statement": "When the same signature or type object occurs in several places of a file (a function, its type, structs containing it, code), qualifying the parts one after the other gives each place what it would get if nothing were shared; and the same for several files.", "quantifier": "every sharing between parts, every order of parts, every import state", "why_tests_cant": "needs a type object used in several places of which one is updated in place, with a renamed package", "anchors": ["model.go:FuncSpec.qualify", "model.go:InterfaceMethod.qualify", "imports.go:Imports.EnsureAllTypesImported"]}
{"id": "C79", "title": "Constructors store exactly what they are given", "statement": "The objects made by PointerType, SliceType, ArrayType, MapType, ChannelType, NamedType, StructType, InterfaceType and FuncType(Variadic) stand for the types made of what the arguments stand for, with the same panics, and making them changes no other object.", "quantifier": "every memory, all arguments", "why_tests_cant": "all component types and all sharing", "anchors": ["types.go:PointerType", "types.go:MapType", "types.go:StructType", "types.go:InterfaceType", "types.go:FuncType", "types.go:FuncTypeFromSig"]}
{"id": "C80", "title": "A file that is complete is written exactly if its type specs do not hold themselves", "statement": "When every part of a file is there (no nil type inside a type, no empty declaration, all named specs used as field types declared, code arguments that refer to something), the file is written if and only if no type spec of the file is, through the fields of structs, part of itself; and the text is the same however deep the recursion is allowed to go.", "quantifier": "every file without templates, every state it can be in, every import history, every depth of nesting", "why_tests_cant": "needs all shapes of nesting of type specs, including cyclic ones, and no input that fails must be missed", "anchors": ["model.go:WriteGoFile", "model.go:TypeSpec.qualify", "model.go:TypeSpec.writeUnderlying", "model.go:FieldSpec.writeTo", "code.go:line.qualify"]}
{"id": "C81", "title": "Writing a complete file panics for no other reason", "statement": "Writing a complete file never panics: it gives a text, or (a type spec that holds itself) it recurses without end, at every depth of recursion.", "quantifier": "every complete file without templates, every import history, every bound on the recursion", "why_tests_cant": "the absence of panics over all files", "anchors": ["model.go:WriteGoFile", "model.go:GoFile.writeTo", "model.go:TypeSpec.qualify", "types.go:typeNameToBuffer"]}
{"id": "C82", "title": "Every file that is built from a complete description is written, and says what was described", "statement": "Calling the constructors and setters as a description says and writing the file gives a text (it never fails), which is a Go file with the described declarations, every name in it standing for the package it was given for.", "quantifier": "every description of a file without templates whose types have no nil components and whose code arguments refer to something, every earlier use of the package", "why_tests_cant": "all files that can be built, from first call to written text", "anchors": ["model.go:NewGoFile", "model.go:GoFile.AddElement", "model.go:WriteGoFile", "model.go:GoFile.writeTo", "imports.go:Imports.EnsureTypeImported"]}
{"id": "C83", "title": "The imports of a file with templates are exactly what its code and its template data mention", "statement": "After writing, the imports of a file are those it had before and the packages other than its own that its declarations, its code arguments and the data of its templates refer to: none missing, none more.", "quantifier": "every file with any templates, every data value, every import history", "why_tests_cant": "data values of all Go types, shared between blocks, with all combinations of packages of equal names", "anchors": ["code.go:templ.qualify", "imports.go:Imports.QualifyTemplateData", "imports.go:qualifyTemplateData", "model.go:WriteGoFile"]}
{"id": "C84", "title": "Templates are executed with data that carry the names of the file they are written in", "statement": "When a file is written, each of its templates is executed with the data it was given in which every reference carries the name under which the finished file imports its package; the data of templates of other files stay as they are.", "quantifier": "every file with templates, every data value, every import history", "why_tests_cant": "the names depend on everything the file mentions before and after the template", "anchors": ["code.go:RenderCode", "code.go:templ.qualify", "code.go:templ.writeTo", "imports.go:qualifyTemplateData"]}
{"id": "C85", "title": "A file with templates can be written twice", "statement": "Writing a file with templates a second time gives the same text and changes nothing.", "quantifier": "every file with templates, every data value, every import history", "why_tests_cant": "needs data whose second qualification differs from the first", "anchors": ["code.go:templ.qualify", "imports.go:qualifyTemplateData", "model.go:WriteGoFile"]}
{"id": "C86", "title": "A file with templates says what was described, with its names resolved by its imports", "statement": "In a file whose template data hold no specs that belong to a file and no pointers to interfaces: every package, symbol, type or method passed to its code is written by a name its imports resolve to the right package, and if every declaration is in the grammar, the text is a Go file with those declarations, meaning the packages they were given for.", "quantifier": "every such file, every import history with honest and usable names; code whose text, that of the templates included, is in the grammar", "why_tests_cant": "templates and code compete for the same names", "anchors": ["model.go:GoFile.writeTo", "code.go:line.qualify", "code.go:templ.qualify", "imports.go:Imports.EnsureTypeImported"]}
{"id": "C87", "title": "A complete file with templates is written unless a template fails", "statement": "If a file is complete, no type spec holds itself, and the data of its templates can be read and stored by reflection, then qualification succeeds, and the file is written whenever its templates execute; the only other way to fail is a type spec that holds itself.", "quantifier": "every complete file with templates whose data hold no specs that belong to a file and no pointers to interfaces, every import history", "why_tests_cant": "the absence of panics over all files and data", "anchors": ["model.go:WriteGoFile", "code.go:templ.writeTo", "code.go:templ.qualify", "imports.go:qualifyTemplateData"]}
{"id": "C88", "title": "A described file with templates is built, written and says what was described", "statement": "Calling the constructors and setters as a description with templates says, and writing the file, gives a text if the templates execute, which is a Go file with the described declarations, every name in it standing for the package it was given for.", "quantifier": "every complete description with templates whose data reflection can read and store and hold no specs that belong to a file, every earlier use of the package", "why_tests_cant": "all files that can be built, from first call to written text", "anchors": ["model.go:NewGoFile", "code.go:RenderCode", "code.go:AddCode", "model.go:WriteGoFile", "imports.go:qualifyTemplateData"]}
{"id": "C89", "title": "A file has the elements added to it, in order, whatever else the program does", "statement": "After any further calls of the library on any number of files, a file has the elements it had and after them one for each addition to it that returned, in the order of the calls: the element itself, or a declaration that begins with the added spec. ElementAt gives each by its index and panics for every other index.", "quantifier": "every program: every list of calls of the public functions on any number of files, including calls that panic and files that are written in between", "why_tests_cant": "interleavings of all calls of the library on all files", "anchors": ["model.go:GoFile.AddElement", "model.go:GoFile.AddConst", "model.go:GoFile.AddVar", "model.go:GoFile.AddType", "model.go:GoFile.NumElements", "model.go:GoFile.ElementAt"]}
{"id": "C90", "title": "The files of a program are those it made, and their imports are the result of import calls", "statement": "The files that exist after any program are those whose NewGoFile call returned, in order, with the name, import path and package name given then; the imports of each are what some list of import calls makes of new imports. So every theorem about files with such imports holds of every file of every program, for example: writing a file without templates twice gives the same text.", "quantifier": "every program: every list of calls of the public functions on any number of files", "why_tests_cant": "interleavings of all calls of the library on all files", "anchors": ["model.go:NewGoFile", "model.go:WriteGoFile", "imports.go:NewImportsFor", "imports.go:Imports.QualifyTemplateData"]}
{"id": "C91", "title": "A spec belongs to the file to which it was added last", "statement": "The file of a const, var, type or function spec is the last one to which the spec, or a declaration that then had it, was added; adding a spec to a declaration that is in a file already does not give it that file.", "quantifier": "every program in which no addition to a file panics", "why_tests_cant": "interleavings of all calls of the library on all files", "anchors": ["model.go:GoFile.AddElement", "model.go:GoFile.AddConst", "model.go:GoFile.AddVar", "model.go:GoFile.AddType", "model.go:FuncSpec.setParent"]}
{"id": "C92", "title": "Nothing but import calls changes the imports of a file before it is written", "statement": "Until a file is written or its imports are given template data, its imports are the result of the import calls made on them, in order, whatever was done to other files, writing them included. So the text of a new file means what its declarations say when it is written, every name resolved by its own imports.", "quantifier": "every program that has not yet written the file; for the meaning: honest and usable import calls on it", "why_tests_cant": "interleavings of all calls of the library on all files", "anchors": ["imports.go:Imports.RegisterImport", "imports.go:NewImportsFor", "model.go:WriteGoFile"]}
{"id": "C93", "title": "A formatted line is written with its text as it is and every argument in place of its verb", "statement": "Printf with a format made of text (percent signs doubled) and verbs that are letters writes the text unchanged and, for each verb, the argument: a string as itself or, for %q, as a literal with that value; an integer as a decimal with that value; a reference as the name the file's imports give it.", "quantifier": "every prepared file, every such line in it, any number of pieces and arguments", "why_tests_cant": "formats, verbs, argument kinds and import histories combine without bound", "anchors": ["code.go:CodeBlock.Printf", "code.go:line.writeTo", "code.go:line.qualify"]}
{"id": "C94", "title": "The type variables stand for the Go types they are named after", "statement": "Each of the variables IntType ... ErrorType is a type whose text is the name of the documented Go type, or of the same type under Go's other name for it (byte, rune); two variables are equal exactly if Go's types are; no file's imports change them or are changed by them. UnsafePointerType imports package unsafe, nothing else, and is written with that import's prefix.", "quantifier": "every variable, every import state", "why_tests_cant": "every import state, including packages that compete for the name unsafe", "anchors": ["types.go:BasicType", "types.go:NamedType", "types.go:typeNameToString", "imports.go:Imports.EnsureTypeImported"]}
{"id": "C95", "title": "The underlying type of a type spec is what its members make up", "statement": "The underlying type that a struct or interface TypeSpec reports (and that is written wherever the unnamed spec is used as a type) is the struct of its fields' names, types and tags, or the interface of its elements' methods and embedded types, as they are now.", "quantifier": "every way of making a spec, every program of calls afterwards", "why_tests_cant": "the wrong case needs a setter called after the spec was made; what stays right is about all call sequences", "anchors": ["model.go:NewStructTypeSpec", "model.go:NewInterfaceTypeSpec", "model.go:NewTypeSpec", "model.go:TypeSpec.Underlying", "model.go:FieldSpec.SetTag"]}
{"id": "C96", "title": "A member belongs to the type spec that was made of it last", "statement": "After any sequence of calls in which the makings of struct and interface specs return, the type spec of a field or interface element is the newest one among those made of it by NewStructTypeSpec or NewInterfaceTypeSpec, and unchanged if there is none; writing files, other settings and new specs that share it make no difference.", "quantifier": "every program, every member, every state", "why_tests_cant": "sequences of any length with members in several specs", "anchors": ["model.go:NewStructTypeSpec", "model.go:NewInterfaceTypeSpec", "model.go:TypeSpec.setParent", "model.go:InterfaceMethod.setParent"]}
{"id": "C97", "title": "Qualified template data says what the data said", "statement": "After QualifyTemplateData returns, every package, symbol, method reference and type in the result prints (String) as a text that means, through the import list rendered then or after any later registrations, what stood at that place in the data; signatures, interface members and specs likewise; a go/types or reflect value is either left as it is or replaced by a gopoet value that prints so.", "quantifier": "all data that Go's types allow, with packages named rightly and usably and maps whose renamed keys stay different (where keys coincide: everything that is left in the result); every history of calls before and after", "why_tests_cant": "no test renders qualified data; nested data and later registrations are unbounded", "anchors": ["imports.go:Imports.QualifyTemplateData", "templates.go:qualifyTemplateData", "doc.go"]}
{"id": "C98", "title": "References to the things of a program: names never change, the package is that of the last file", "statement": "Whatever a program calls, a const, var, type, func, field or interface method keeps the names it was made with. SymbolAt, ToSymbol and ToMethodRef return the name with the path and name of the file to which the spec was added last, as that file was made, and panic if it was added to none, if the index is outside the names or if a type has no name; a method with receiver gives the receiver's type; a method of an interface belongs to the type spec that was made of it last.", "quantifier": "all programs: lists of calls of constructors, builders, AddElement, AddType, WriteGoFile and the rest, in any order, whatever text/template does to the imports of a file; additions that return", "why_tests_cant": "histories are unbounded: tests reference specs once, right after adding them", "anchors": ["model.go:ConstSpec", "model.go:TypeSpec", "model.go:FuncSpec", "model.go:InterfaceMethod", "model.go:GoFile", "model.go:ToSymbol", "model.go:SymbolAt"]}
{"id": "C99", "title": "The names of a written file are found where they are meant", "statement": "Under Go's rules of scope every qualified name of a written file is found in the package meant and every other one in the file's package or among the predeclared ones: the names of its imports differ from each other, from what the file declares, from the unqualified names of types that it uses, from init, and from the parameters of every function whose code uses them before a dot. The file then means what was built.", "quantifier": "every file whose packages are named rightly and usably, every history of registrations, every description of a file; code without templates", "why_tests_cant": "needs the combination of a package's name with declared, predeclared or parameter names; tests have fixed examples without clashes", "anchors": ["imports.go:Imports.RegisterImportForPackage", "imports.go:Imports.prefixForPackage", "model.go:WriteGoFile", "model.go:NewGoFile"]}
{"id": "C100", "title": "Every import of a written file is used", "statement": "Every import of a written file is the qualifier of a type in a declaration or stands before a dot in the code (Go rejects an import that is not used).", "quantifier": "every description of a file, with any code but templates", "why_tests_cant": "types nest without bound and are asked for in one pass and written in another", "anchors": ["imports.go:Imports.EnsureTypeImported", "model.go:WriteGoFile", "code.go:CodeBlock.qualify", "code.go:line.qualify"]}
{"id": "C101", "title": "Code with references reads as its text with what is referred to", "statement": "Code printed from text, strings, quoted strings, numbers and references (to packages, to names of any package, to methods, to types) is read by Go's lexer, in the written file, as exactly the tokens of its text with, in the place of each reference, tokens that denote under the imports of that file what is referred to: the name of the import, the name qualified by it or not at all in its own package, the type meant. This holds for every body and every initial value of the parsed file.", "quantifier": "every file whose packages are named rightly and usably, after any history of registrations; every sequence of Print, Println, Printf, Printlnf whose pieces do not run into each other (a word against a word, a number against a number); code without templates", "why_tests_cant": "needs the combination of unbounded text, formats, types and clashes of import names; tests compare a few fixed outputs", "anchors": ["code.go:CodeBlock.qualify", "code.go:line.qualify", "code.go:CodeBlock.writeTo", "code.go:CodeBlock.Printf", "model.go:WriteGoFile", "imports.go:Imports.prefixForPackage"]}
{"id": "C102", "title": "Qualifying template data ends", "statement": "QualifyTemplateData returns or panics on all data, also on data with pointers, slices and maps that lead back to where they came from; it ends on all data that is a finite tree, and returns only on such data.", "quantifier": "all memories with Go's memory safety, all values in them", "why_tests_cant": "tests have finite data; no test can wait for ever", "anchors": ["imports.go:Imports.QualifyTemplateData", "templates.go:qualifyTemplateData"]}
{"id": "C103", "title": "Qualifying template data does not write to the data", "statement": "Whatever QualifyTemplateData does, whether it returns or panics half way, no variable, array or map that was there before is written to: what is different is in new memory.", "quantifier": "all memories and values, with any sharing and any nesting, all imports", "why_tests_cant": "a write to one shared element is only seen by looking at all memory afterwards", "anchors": ["imports.go:Imports.QualifyTemplateData", "templates.go:qualifyTemplateData", "templates_unsafe.go", "templates_no_unsafe.go"]}
{"id": "C104", "title": "Sharing in template data does not matter", "statement": "What QualifyTemplateData returns, registers and panics with depends only on the tree that the data stands for, not on which pointers, slices and maps in it share memory: it is what the walk over the tree gives.", "quantifier": "all memories and values that stand for a finite tree; all imports", "why_tests_cant": "needs all ways in which one tree can be laid out in memory", "anchors": ["templates.go:qualifyTemplateData"]}
{"id": "C105", "title": "Sharing in template data is preserved", "statement": "Pointers that are equal in the data are equal in the result; data in which nothing gets another name is the result itself and no memory is allocated.", "quantifier": "all memories and values, all histories of registrations", "why_tests_cant": "needs comparison of addresses before and after", "anchors": ["templates.go:qualifyTemplateData"]}
{"id": "C106", "title": "Adding elements to a file leaves the text of the earlier ones", "statement": "The text written of a file is its head, its imports and the text of its elements one after the other; a file with only the first k of these elements can be written too, with the same head, imports that are among those of the whole file, and the same text for the k elements.", "quantifier": "all files after any history of registrations, all numbers k; code without templates", "why_tests_cant": "needs every file and every prefix of it; the names of imports are global to the file and might have moved", "anchors": ["model.go:WriteGoFile", "imports.go:Imports.RegisterImportForPackage", "code.go:CodeBlock.qualify", "model.go:GoFile.AddElement"]}
{"id": "C107", "title": "Writing a file leaves the arguments that the program passed as they are", "statement": "A slice of arguments that a program passes to Printf with ... has the same elements after the file is written; failing that, every element that changes is the same reference under the package names of the file.", "quantifier": "all files after any history of registrations, all slices in lines of their code, also ones used in several lines; code without templates", "why_tests_cant": "a test sees the written text, not the caller's slice, and only for its own import clashes", "anchors": ["code.go:CodeBlock.Printf", "code.go:line.qualify", "imports.go:Imports.EnsureImported", "imports.go:Imports.EnsureTypeImported"]}
{"id": "C108", "title": "The order of requests and of elements does not matter to the imports", "statement": "The import lines and the name of every package are the same in whatever order the packages are requested; with its elements in another order a file is written with the same import lines and the same text of each element.", "quantifier": "all sets of requests in all orders (also repeated); all files after any history of registrations and all orders of their elements; code without templates", "why_tests_cant": "needs all orders of all requests; a test has one order", "anchors": ["imports.go:Imports.RegisterImport", "imports.go:Imports.prefixForPackage", "imports.go:Imports.ImportSpecs", "model.go:WriteGoFile", "model.go:GoFile.AddElement"]}
{"id": "C109", "title": "A file is written from its own parts and what its code refers to", "statement": "What is written of a file, or the panic instead, and its imports afterwards depend on nothing but the file, the declarations, specs and code that make it up, the names of the specs that its code refers to, and the packages these belong to: two programs that agree in these write the same, whatever else they build.", "quantifier": "all pairs of states of the data model that agree in what the file sees; all files, whatever their imports; all data of templates without specs; all bounds of recursion", "why_tests_cant": "a test builds one program; the property compares all pairs of programs that differ elsewhere", "anchors": ["model.go:WriteGoFile", "code.go:line.qualify", "code.go:line.writeTo", "model.go:TypeSpec.qualify", "model.go:FuncSpec.writeTo"]}
{"id": "C110", "title": "A file is written the same alone and after other files", "statement": "A file that shares no declarations, no arguments of code and no templates with other files is written the same - or panics the same - alone and after those are written, although its code may refer to what they declare and theirs to what it declares; such files can be written in any order, with the same texts and the same imports, and WriteGoFiles writes of each what would be written of it first.", "quantifier": "all files, all numbers of other files, written or failing to be written, and all orders", "why_tests_cant": "qualifying rewrites specs and arguments in place; a test writes its files in one order", "anchors": ["model.go:WriteGoFiles", "model.go:WriteGoFile", "code.go:line.qualify", "model.go:InterfaceEmbed.qualify", "code.go:CodeBlock.qualify"]}
{"id": "C111", "title": "WriteGoFiles changes nothing outside the files that it began to write", "statement": "Whatever comes of WriteGoFiles - it returns, returns an error of the open function, of the writer or of the formatter, or panics - the files it has begun to write are those that it has opened, the first of the list and in that order, each once; in the program nothing has changed but the imports of these files and the references and template data in what they consist of. All files are begun if there is no error.", "quantifier": "all lists of files, all open functions, writers and formatters, all templates and imports, all outcomes", "why_tests_cant": "outcomes in the middle of a list, and everything else that is alive", "anchors": ["model.go:WriteGoFiles", "model.go:WriteGoFile", "model.go:WriteGoFilesToFileSystem", "code.go:line.qualify"]}
{"id": "C112", "title": "Whatever comes of writing a file comes of it again", "statement": "Let a file without templates, in any state that a program reaches, be written, with the result that there is a text, or a panic - at whatever point, so that some of its references are already qualified and some of the packages are imported. If it is written again at once then the result is the same text, or the same panic, and nothing at all changes. The same holds of files with templates whose data contains no specs of files. And whatever comes of it, no name that the imports of any file had given to a package changes: PrefixForPackage returns what it did.", "quantifier": "for all files, imports, programs, template data of the model, results and points of panic", "why_tests_cant": "needs every point at which writing may stop, with the state half changed there", "anchors": ["model.go:WriteGoFile", "imports.go:Imports.prefixForPackage", "code.go:line.qualify", "imports.go:Imports.QualifyTemplateData", "model.go:TypeSpec.qualify"]}
{"id": "C113", "title": "After WriteGoFiles, whatever came of it, files are written as before", "statement": "Let WriteGoFiles end in any way - it returns, returns an error of the open function, of the writer or of the formatter, or panics. Each file, whether or not it was begun or written, then gives the text or the panic that it would have given before the call, and has the same imports after that. This holds after any number of such calls. So if WriteGoFiles is called again, with other functions perhaps, and returns no error, it writes for each file the formatted text that the file had at first.", "quantifier": "all lists of files, also with repetitions, all open functions, writers and formatters of both calls, all outcomes of the first", "why_tests_cant": "needs every point at which the first call may fail, and every file then", "anchors": ["model.go:WriteGoFiles", "model.go:WriteGoFile", "code.go:line.qualify", "imports.go:Imports.prefixForPackage"]}
{"id": "C114", "title": "What comes before a nil type has been imported when it makes the import functions panic", "statement": "A type or signature that is well-formed but for nil types in it makes EnsureTypeImported or EnsureAllTypesImported panic if and only if it has a nil. What has been imported then is exactly what comes before the first nil, keys of maps before their elements and embedded interfaces before methods: the imports are those that calls of EnsureImported for these symbols would leave. So a file whose first element is a function with such a signature is not written and keeps these imports, and the same holds of such a type as an argument of code.", "quantifier": "all types and signatures with nils at any depth, all states of the imports, all files", "why_tests_cant": "needs every place of a nil in every type, and the state after the panic", "anchors": ["imports.go:Imports.EnsureTypeImported", "imports.go:Imports.EnsureAllTypesImported", "imports.go:Imports.qualifyType", "imports.go:Imports.qualifySignature", "code.go:line.qualify"]}
