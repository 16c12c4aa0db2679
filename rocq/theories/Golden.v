(** The repository's own tests, run on the model.  They are no part of the argument; they show that
    the model gives the answers the Go code is known to give.  gofmt, which the model does not
    contain, changes white space only: the texts are compared as tokens and comments. *)
From Verif Require Import Base GoPath Utf8 Types Imports Names SpecGo SpecFile SpecDoc World SpecWorld.

Notation StringT := (TBasic KString).
Notation Int64T := (TBasic KInt64).
Notation BoolT := (TBasic KBool).
Definition code_and_comments (s : string) : option (list event) :=
  option_map (filter (fun e => match e with ELine => false | _ => true end)) (events s).
(** gopoet_test.go:19-82 TestSimpleEndToEnd *)
Definition simple : WM (TD := unit) nat :=
    do fooState <- NewTypeSpec "FooState" (IsName Int64T) ;;
    do foo <- NewConst ["FOO"] ;;
    do _ <- Value_Initialize consts set_consts foo "%s(%d)" [ATypeSpec fooState; AInt 101] ;;
    do bar <- NewConst ["BAR"] ;;
    do _ <- Value_Initialize consts set_consts bar "%s(%d)" [ATypeSpec fooState; AInt 202] ;;
    do vfoo <- NewVar ["vfoo"] ;;
    do _ <- Value_SetType vars set_vars vfoo (IsName StringT) ;;
    do vmap <- NewVar ["vmap"] ;;
    do cb <- Printlnf "map[string]%s{" [ATypeSpec fooState] ;;
    do _ <- CodeBlock_Printlnf cb "    %q: %s," [AString "foo"; AConst foo] ;;
    do _ <- CodeBlock_Printlnf cb "    %q: %s," [AString "bar"; AConst bar] ;;
    do _ <- CodeBlock_Println cb "}" ;;
    do _ <- Value_SetInitializer vars set_vars vmap (Some cb) ;;
    do fooDetails <- NewTypeSpec "FooDetails" (IsName (StructType [
      mkField "ID" Int64T "json:""id""";
      mkField "Name" StringT "json:""name""";
      mkField "Categories" (TSlice StringT) "json:""categories"""])) ;;
    do fooInterface <- NewTypeSpec "IFoo" (IsName (InterfaceType [NewSymbol "fmt" "Stringer"]
      [mkMethod "DoIt" (mkSig [mkArg "" (NamedType (NewSymbol "net/http" "RoundTripper")); mkArg "" BoolT] [mkArg "" ErrorType] false)])) ;;
    do file <- NewGoFile "basic.go" "foo.bar/baz" "baz" ;;
    do _ <- AddType file fooState ;;
    do _ <- AddType file fooDetails ;;
    do _ <- AddType file fooInterface ;;
    do cd <- NewConstDecl [foo; bar] ;;
    do _ <- AddElement file (EConst cd) ;;
    do vd <- NewVarDecl [vfoo; vmap] ;;
    do _ <- AddElement file (EVar vd) ;;
    do fn <- NewFunc "MakeIt" ;;
    do tn <- from_res (fun w => rbind (rd types fooState w) (fun T => TypeSpec_ToTypeName T w)) ;;
    do _ <- Func_AddArg fn "foo" tn ;;
    do strs <- from_res (fun _ => SliceType StringT) ;;
    do _ <- Func_AddArg fn "bar" strs ;;
    do bz <- from_res (fun _ => rbind (ChannelType (StructType []) BothDir) (fun c => rbind (SliceType BoolT) (fun s =>
               FuncTypeVariadic [mkArg "" c; mkArg "" s] []))) ;;
    do _ <- Func_AddArg fn "baz" bz ;;
    do _ <- Func_AddResult fn "" ErrorType ;;
    do _ <- Func_Printlnf fn "if foo == %s {" [AConst foo] ;;
    do _ <- Func_Printlnf fn "    return %s(%s(bar, %s))" [ASymbol (NewSymbol "errors" "New"); ASymbol (NewSymbol "strings" "Join"); AVar vfoo] ;;
    do _ <- Func_Printlnf fn "}" [] ;;
    do _ <- Func_Printlnf fn "bools := make([]bool, len(bar))" [] ;;
    do _ <- Func_Printlnf fn "for i := range bar {" [] ;;
    do _ <- Func_Printlnf fn "    _, bools[i] = vmap[bar[i]]" [] ;;
    do _ <- Func_Printlnf fn "}" [] ;;
    do _ <- Func_Printlnf fn "ch := make(chan struct{}, 1024)" [] ;;
    do _ <- Func_Printlnf fn "baz(ch, bools...)" [] ;;
    do _ <- Func_Printlnf fn "return nil" [] ;;
    do _ <- AddElement file (EFunc fn) ;;
    do r <- from_res (NewReceiverForType "s" (IsSpec fooState)) ;;
    do m <- NewMethod (Some r) "String" ;;
    do _ <- Func_AddResult m "" StringT ;;
    do _ <- Func_Printlnf m "return %q" [AString "foo"] ;;
    do _ <- AddElement file (EFunc m) ;;
    do r <- from_res (NewPointerReceiverForType "d" (IsSpec fooDetails)) ;;
    do m <- NewMethod (Some r) "String" ;;
    do _ <- Func_AddResult m "" StringT ;;
    do _ <- Func_Printlnf m "return d.Name" [] ;;
    do _ <- AddElement file (EFunc m) ;;
    sret file.
(** gopoet_test.go:84-180 TestMoreComplexEndToEnd *)
Definition complex : WM (TD := unit) nat :=
    do fooState <- NewTypeSpec "FooState" (IsName Int64T) ;;
    do _ <- Type_SetComment fooState "FooState is the state of a foo" ;;
    do foo <- NewConst ["FOO"] ;;
    do _ <- Value_SetComment consts set_consts foo "The state that is fooey." ;;
    do _ <- Value_Initialize consts set_consts foo "%s(%d)" [ATypeSpec fooState; AInt 101] ;;
    do bar <- NewConst ["BAR"] ;;
    do _ <- Value_SetComment consts set_consts bar "The state that is barry." ;;
    do _ <- Value_Initialize consts set_consts bar "%s(%d)" [ATypeSpec fooState; AInt 202] ;;
    do vfoo <- NewVar ["vfoo"] ;;
    do _ <- Value_SetType vars set_vars vfoo (IsName StringT) ;;
    do _ <- Value_SetComment vars set_vars vfoo "Global variable that holds a foo string." ;;
    do vmap <- NewVar ["vmap"] ;;
    do _ <- Value_SetComment vars set_vars vmap "Variable that is a mapping of strings to foo states." ;;
    do cb <- Printlnf "map[string]%s{" [ATypeSpec fooState] ;;
    do _ <- CodeBlock_Printlnf cb "    %q: %s," [AString "foo"; AConst foo] ;;
    do _ <- CodeBlock_Printlnf cb "    %q: %s," [AString "bar"; AConst bar] ;;
    do _ <- CodeBlock_Println cb "}" ;;
    do _ <- Value_SetInitializer vars set_vars vmap (Some cb) ;;
    do f0 <- NewField "ID" (IsName Int64T) ;;
    do _ <- Field_SetTag f0 "json:""id""" ;;
    do _ <- Field_SetComment f0 "ID is a unique identifier for this foo" ;;
    do f1 <- NewField "Name" (IsName StringT) ;;
    do _ <- Field_SetTag f1 "json:""name""" ;;
    do _ <- Field_SetComment f1 "Name is the display name for this foo" ;;
    do f2 <- NewField "Categories" (IsName (TSlice StringT)) ;;
    do _ <- Field_SetTag f2 "json:""categories""" ;;
    do _ <- Field_SetComment f2 "Categories is a slice of category names" ;;
    do fooDetails <- NewStructTypeSpec "FooDetails" [f0; f1; f2] ;;
    do _ <- Type_SetComment fooDetails "FooDetails provide the gory details for your foo." ;;
    do e <- NewInterfaceEmbed (NewSymbol "fmt" "Stringer") ;;
    do _ <- Elem_SetComment e "All IFoos can print to string." ;;
    do m <- NewInterfaceMethod "DoIt" ;;
    do _ <- Method_AddArg m "" (NamedType (NewSymbol "net/http" "RoundTripper")) ;;
    do _ <- Method_AddArg m "" BoolT ;;
    do _ <- Method_AddResult m "" ErrorType ;;
    do _ <- Elem_SetComment m "DoIt massages the foo into producing one or more frobnitz." ;;
    do fooInterface <- NewInterfaceTypeSpec "IFoo" [e; m] ;;
    do _ <- Type_SetComment fooInterface "IFoo is for producing frobnitzes." ;;
    do file <- NewGoFile "basic.go" "foo.bar.2/baz" "baz" ;;
    do _ <- AddType file fooState ;;
    do _ <- AddType file fooDetails ;;
    do _ <- AddType file fooInterface ;;
    do cd <- NewConstDecl [foo; bar] ;;
    do _ <- ConstDecl_SetComment cd "some constants" ;;
    do _ <- AddElement file (EConst cd) ;;
    do vd <- NewVarDecl [vfoo; vmap] ;;
    do _ <- VarDecl_SetComment vd "some variables" ;;
    do _ <- AddElement file (EVar vd) ;;
    do fn <- NewFunc "MakeIt" ;;
    do _ <- Func_SetComment fn "MakeIt does a bunch of silly things, possibly returning an error." ;;
    do tn <- from_res (fun w => rbind (rd types fooState w) (fun T => TypeSpec_ToTypeName T w)) ;;
    do _ <- Func_AddArg fn "foo" tn ;;
    do strs <- from_res (fun _ => SliceType StringT) ;;
    do _ <- Func_AddArg fn "bar" strs ;;
    do bz <- from_res (fun _ => rbind (ChannelType (StructType []) BothDir) (fun c => rbind (SliceType BoolT) (fun s =>
               FuncTypeVariadic [mkArg "" c; mkArg "" s] []))) ;;
    do _ <- Func_AddArg fn "baz" bz ;;
    do _ <- Func_AddResult fn "" ErrorType ;;
    do _ <- Func_Printlnf fn "if foo == %s {" [AConst foo] ;;
    do _ <- Func_Printlnf fn "    return %s(%s(bar, %s))" [ASymbol (NewSymbol "errors" "New"); ASymbol (NewSymbol "strings" "Join"); AVar vfoo] ;;
    do _ <- Func_Printlnf fn "}" [] ;;
    do _ <- Func_Printlnf fn "bools := make([]bool, len(bar))" [] ;;
    do _ <- Func_Printlnf fn "for i := range bar {" [] ;;
    do _ <- Func_Printlnf fn "    _, bools[i] = vmap[bar[i]]" [] ;;
    do _ <- Func_Printlnf fn "}" [] ;;
    do _ <- Func_Printlnf fn "ch := make(chan struct{}, 1024)" [] ;;
    do _ <- Func_Printlnf fn "baz(ch, bools...)" [] ;;
    do _ <- Func_Printlnf fn "return nil" [] ;;
    do _ <- AddElement file (EFunc fn) ;;
    do r <- from_res (NewReceiverForType "s" (IsSpec fooState)) ;;
    do m <- NewMethod (Some r) "String" ;;
    do _ <- Func_SetComment m "String implements the fmt.Stringer interface" ;;
    do _ <- Func_AddResult m "" StringT ;;
    do _ <- Func_Printlnf m "return %q" [AString "foo"] ;;
    do _ <- AddElement file (EFunc m) ;;
    do r <- from_res (NewPointerReceiverForType "d" (IsSpec fooDetails)) ;;
    do m <- NewMethod (Some r) "String" ;;
    do _ <- Func_SetComment m "String implements the fmt.Stringer interface" ;;
    do _ <- Func_AddResult m "" StringT ;;
    do _ <- Func_Printlnf m "return d.Name" [] ;;
    do _ <- AddElement file (EFunc m) ;;
    sret file.
(** test-outputs/foo.bar/baz/basic.go *)
Definition simple_golden : string := "package baz

import ""errors""
import ""fmt""
import ""net/http""
import ""strings""

type FooState int64

type FooDetails struct {
	ID         int64    `json:""id""`
	Name       string   `json:""name""`
	Categories []string `json:""categories""`
}

type IFoo interface {
	fmt.Stringer
	DoIt(http.RoundTripper, bool) error
}

const (
	FOO = FooState(101)
	BAR = FooState(202)
)

var (
	vfoo string
	vmap = map[string]FooState{
		""foo"": FOO,
		""bar"": BAR,
	}
)

func MakeIt(foo FooState, bar []string, baz func(chan struct{}, ...bool)) error {
	if foo == FOO {
		return errors.New(strings.Join(bar, vfoo))
	}
	bools := make([]bool, len(bar))
	for i := range bar {
		_, bools[i] = vmap[bar[i]]
	}
	ch := make(chan struct{}, 1024)
	baz(ch, bools...)
	return nil
}

func (s FooState) String() string {
	return ""foo""
}

func (d *FooDetails) String() string {
	return d.Name
}
".
(** test-outputs/foo.bar.2/baz/basic.go *)
Definition complex_golden : string := "package baz

import ""errors""
import ""fmt""
import ""net/http""
import ""strings""

// FooState is the state of a foo
type FooState int64

// FooDetails provide the gory details for your foo.
type FooDetails struct {
	// ID is a unique identifier for this foo
	ID int64 `json:""id""`
	// Name is the display name for this foo
	Name string `json:""name""`
	// Categories is a slice of category names
	Categories []string `json:""categories""`
}

// IFoo is for producing frobnitzes.
type IFoo interface {
	// All IFoos can print to string.
	fmt.Stringer
	// DoIt massages the foo into producing one or more frobnitz.
	DoIt(http.RoundTripper, bool) error
}

// some constants
const (
	// The state that is fooey.
	FOO = FooState(101)
	// The state that is barry.
	BAR = FooState(202)
)

// some variables
var (
	// Global variable that holds a foo string.
	vfoo string
	// Variable that is a mapping of strings to foo states.
	vmap = map[string]FooState{
		""foo"": FOO,
		""bar"": BAR,
	}
)

// MakeIt does a bunch of silly things, possibly returning an error.
func MakeIt(foo FooState, bar []string, baz func(chan struct{}, ...bool)) error {
	if foo == FOO {
		return errors.New(strings.Join(bar, vfoo))
	}
	bools := make([]bool, len(bar))
	for i := range bar {
		_, bools[i] = vmap[bar[i]]
	}
	ch := make(chan struct{}, 1024)
	baz(ch, bools...)
	return nil
}

// String implements the fmt.Stringer interface
func (s FooState) String() string {
	return ""foo""
}

// String implements the fmt.Stringer interface
func (d *FooDetails) String() string {
	return d.Name
}
".
Definition written (prog : WM (TD := unit) nat) : option string :=
  match (do f <- prog ;; source exEnv 10 f) empty_world with (Ok s, _) => Some s | _ => None end.
Example TestSimpleEndToEnd :
  match written simple with
  | Some s => code_and_comments s = code_and_comments simple_golden /\ code_and_comments s <> None
  | None => False
  end.
Proof. vm_compute. split; [reflexivity|discriminate]. Qed.
Example TestMoreComplexEndToEnd :
  match written complex with
  | Some s => code_and_comments s = code_and_comments complex_golden /\ code_and_comments s <> None
  | None => False
  end.
Proof. vm_compute. split; [reflexivity|discriminate]. Qed.

(** imports_test.go:8-109 TestImportPackages, with either way of registering; TestExport and
    TestUnexport of names_test.go:5-17 *)
Definition registered : list (string * string) := [("foo.bar/fizzbuzz", "fizzbuzz"); ("foo.bar/fubar", "fubar"); ("foo.bar/fizzbuzz", "fizzbuzz"); ("foo.bar/fubar", "fubar"); ("foo.bar/baz", "baz"); ("foo.bar.2/fubar", "fubar"); ("foo.bar.3/fubar", "fubar"); ("foo.bar.2/fizzbuzz", "fizzbuzz"); ("foo.bar.3/fizzbuzz", "fizzbuzz"); ("foo.bar.4/fubar", "fubar_v4"); ("foo.bar/fuzzywuzzy", ""); ("foo.bar.5/fubar", "")].
Definition prefixes : list string := ["fizzbuzz."; "fubar."; "fizzbuzz."; "fubar."; ""; "fubar1."; "fubar2."; "fizzbuzz1."; "fizzbuzz2."; "fubar_v4."; "fuzzywuzzy."; "fubar3."].
Definition import_test (register : string -> string -> IM string) : Prop :=
  let '(r, i) := map_m (fun c => register (fst c) (snd c)) registered (NewImportsFor "foo.bar/baz") in
  r = Ok prefixes /\
  fst (map_m PrefixForPackage ["foo.bar/fizzbuzz"; "foo.bar/fubar"; "foo.bar/baz"; "foo.bar.2/fubar"; "foo.bar.3/fubar"; "foo.bar.2/fizzbuzz"; "foo.bar.3/fizzbuzz"; "foo.bar.4/fubar"; "foo.bar/fuzzywuzzy"; "foo.bar.5/fubar"] i) = Ok ["fizzbuzz."; "fubar."; ""; "fubar1."; "fubar2."; "fizzbuzz1."; "fizzbuzz2."; "fubar_v4."; "fuzzywuzzy."; "fubar3."] /\
  is_ok (fst (PrefixForPackage "something/never/imported" i)) = false /\
  ImportSpecs i = map (fun s => mkImportSpec (snd s) (fst s)) [("foo.bar.2/fizzbuzz", "fizzbuzz1"); ("foo.bar.2/fubar", "fubar1"); ("foo.bar.3/fizzbuzz", "fizzbuzz2"); ("foo.bar.3/fubar", "fubar2"); ("foo.bar.4/fubar", ""); ("foo.bar.5/fubar", "fubar3"); ("foo.bar/fizzbuzz", ""); ("foo.bar/fubar", ""); ("foo.bar/fuzzywuzzy", "fuzzywuzzy")].
Example TestImportPackages :
  import_test RegisterImport /\ import_test (fun path name => RegisterImportForPackage (mkPackage path name)).
Proof. vm_compute. repeat split. Qed.
Example TestExport : map (Export (fun _ => true) IsUpper ToUpper) ["foo"; "Foo"; "_foo"; "1foo"] = map Ok ["Foo"; "Foo"; "Xfoo"; "X1foo"].
Proof. vm_compute. reflexivity. Qed.
Example TestUnexport : map (Unexport (fun _ => true) ToLower) ["foo"; "Foo"; "_foo"; "1foo"] = map Ok ["foo"; "foo"; "_foo"; "1foo"].
Proof. vm_compute. reflexivity. Qed.
