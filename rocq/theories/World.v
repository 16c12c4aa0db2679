(** Model of model.go and code.go: files, declarations, specs and code blocks.
    Go's pointers become indexes into the tables of a [World]; reading through an index that is
    not allocated is a nil dereference. *)
From Verif Require Import Base GoPath Utf8 Quote Types Imports Conv Fmt.

(** ** Data *)
(** A TypeNameOrSpec (model.go:1184-1186): nil, a TypeName or a *TypeSpec.  A nil TypeName is
    [NoType]; [IsName TNil] stands for no Go value. *)
Inductive TypeNameOrSpec := NoType | IsName (t : TypeName) | IsSpec (id : nat).

(** model.go:1642-1646 ReceiverSpec *)
Record ReceiverSpec := mkReceiver { RcvName : string; RcvType : string; RcvIsPointer : bool }.

(** Values passed to Printf (the cases of line.qualify, code.go:137-215, the other gopoet
    values that have a String method, strings, ints, and anything else).
    Simplification: *Package, *Symbol, *MethodReference and *Signature arguments are
    represented by the value pointed to, and are not nil; nor are the other pointers. *)
Inductive Arg :=
| AString (s : string)
| AInt (z : Z)
| APackage (p : Package)
| APackagePtr (p : Package)
| ASymbol (s : Symbol)
| ASymbolPtr (s : Symbol)
| AMethodRef (m : MethodReference)
| AMethodRefPtr (m : MethodReference)
| ASignature (s : Signature)
| ASignaturePtr (s : Signature)
| ATypeName (t : TypeName)
| AConst (id : nat)
| AVar (id : nat)
| ATypeSpec (id : nat)
| AIMethod (id : nat)
| AFunc (id : nat)
| AField (id : nat)
| AEmbed (id : nat)
| AReflectType (t : RType)
| AGoType (t : GoType)
| AGoObject (o : GoObject)
| AGoPackage (p : option Package)
| AOther (n : nat).

(** code.go:126-129 line, 219-222 *templ.  [line] is a struct holding a slice: its arguments
    live in a table because AddCode (77-80) copies the struct, not the array. *)
Inductive codeElement := Line (format : string) (args : nat) | Templ (t : nat).
(** code.go:22-24 CodeBlock *)
Definition CodeBlock := list codeElement.

(** model.go:517-523 ConstSpec and 724-730 VarSpec: the same fields and, keyword and messages
    apart, the same code; one table each. *)
Record ValueSpec := mkValue
  { VComment : string; VNames : list string; VSType : TypeNameOrSpec;
    VInit : option nat; VParent : option nat }.
(** model.go:408-411 ConstDecl and 644-647 VarDecl *)
Record ValueDecl := mkValueDecl { VDComment : string; VDSpecs : list nat }.
(** model.go:926-933 TypeSpec; 1113-1115 Underlying and 1118-1120 IsAlias are the projections *)
Record TypeSpec := mkTypeSpec
  { TSComment : string; TSName : string; TSIsAlias : bool; TSUnderlying : TypeName;
    TSStruct : list nat; TSInterface : list nat; TSParent : option nat }.
(** model.go:850-853 TypeDecl *)
Record TypeDecl := mkTypeDecl { TDComment : string; TDTypes : list nat }.
(** model.go:1189-1194 FieldSpec *)
Record FieldSpec := mkFieldSpec
  { FSComment : string; FSName : string; FSTag : string; FSType : TypeNameOrSpec;
    FSParent : option nat }.
(** model.go:1269-1273 InterfaceEmbed and 1315-1319 InterfaceMethod *)
Inductive InterfaceElement :=
| InterfaceEmbed (comment : string) (type : Symbol) (parent : option nat)
| InterfaceMethod (comment name : string) (sig : Signature) (parent : option nat).
(** model.go:1427-1433 FuncSpec; the embedded CodeBlock is the entry [FNBody] of the table of
    code blocks *)
Record FuncSpec := mkFunc
  { FNComment : string; FNName : string; FNReceiver : option ReceiverSpec;
    FNSig : Signature; FNBody : nat; FNParent : option nat }.
(** model.go:390-395 FileElement *)
Inductive FileElement :=
| EConst (d : nat) | EVar (d : nat) | EType (d : nat) | EFunc (f : nat).
(** model.go:140-160 GoFile *)
Record GoFile := mkFile
  { FImports : Imports; FName : string; FFileComment : string; FPackageComment : string;
    FPackageName : string; FCanonical : string; FElements : list FileElement }.

(** [TD]: template data (code.go:221), see Template.v. *)
Record World (TD : Type) := mkWorld
  { files : list GoFile;
    constDecls : list ValueDecl; varDecls : list ValueDecl; typeDecls : list TypeDecl;
    consts : list ValueSpec; vars : list ValueSpec; types : list TypeSpec;
    fields : list FieldSpec; ielems : list InterfaceElement; funcs : list FuncSpec;
    blocks : list CodeBlock; argss : list (list Arg); templs : list (nat * TD) }.
Arguments mkWorld {TD}.
Arguments files {TD}. Arguments constDecls {TD}. Arguments varDecls {TD}. Arguments typeDecls {TD}.
Arguments consts {TD}. Arguments vars {TD}. Arguments types {TD}. Arguments fields {TD}.
Arguments ielems {TD}. Arguments funcs {TD}. Arguments blocks {TD}. Arguments argss {TD}.
Arguments templs {TD}.

(** Update of one entry of a table. *)
Fixpoint upd {A} (i : nat) (v : A) (l : list A) : list A :=
  match l, i with
  | [], _ => []
  | _ :: r, O => v :: r
  | x :: r, S k => x :: upd k v r
  end.

Section Model.
Context {TD : Type}.
Notation World := (World TD).
Definition WM (A : Type) := ST World A.

Definition set_files v (w : World) := mkWorld v (constDecls w) (varDecls w) (typeDecls w)
  (consts w) (vars w) (types w) (fields w) (ielems w) (funcs w) (blocks w) (argss w) (templs w).
Definition set_constDecls v (w : World) := mkWorld (files w) v (varDecls w) (typeDecls w)
  (consts w) (vars w) (types w) (fields w) (ielems w) (funcs w) (blocks w) (argss w) (templs w).
Definition set_varDecls v (w : World) := mkWorld (files w) (constDecls w) v (typeDecls w)
  (consts w) (vars w) (types w) (fields w) (ielems w) (funcs w) (blocks w) (argss w) (templs w).
Definition set_typeDecls v (w : World) := mkWorld (files w) (constDecls w) (varDecls w) v
  (consts w) (vars w) (types w) (fields w) (ielems w) (funcs w) (blocks w) (argss w) (templs w).
Definition set_consts v (w : World) := mkWorld (files w) (constDecls w) (varDecls w) (typeDecls w)
  v (vars w) (types w) (fields w) (ielems w) (funcs w) (blocks w) (argss w) (templs w).
Definition set_vars v (w : World) := mkWorld (files w) (constDecls w) (varDecls w) (typeDecls w)
  (consts w) v (types w) (fields w) (ielems w) (funcs w) (blocks w) (argss w) (templs w).
Definition set_types v (w : World) := mkWorld (files w) (constDecls w) (varDecls w) (typeDecls w)
  (consts w) (vars w) v (fields w) (ielems w) (funcs w) (blocks w) (argss w) (templs w).
Definition set_fields v (w : World) := mkWorld (files w) (constDecls w) (varDecls w) (typeDecls w)
  (consts w) (vars w) (types w) v (ielems w) (funcs w) (blocks w) (argss w) (templs w).
Definition set_ielems v (w : World) := mkWorld (files w) (constDecls w) (varDecls w) (typeDecls w)
  (consts w) (vars w) (types w) (fields w) v (funcs w) (blocks w) (argss w) (templs w).
Definition set_funcs v (w : World) := mkWorld (files w) (constDecls w) (varDecls w) (typeDecls w)
  (consts w) (vars w) (types w) (fields w) (ielems w) v (blocks w) (argss w) (templs w).
Definition set_blocks v (w : World) := mkWorld (files w) (constDecls w) (varDecls w) (typeDecls w)
  (consts w) (vars w) (types w) (fields w) (ielems w) (funcs w) v (argss w) (templs w).
Definition set_argss v (w : World) := mkWorld (files w) (constDecls w) (varDecls w) (typeDecls w)
  (consts w) (vars w) (types w) (fields w) (ielems w) (funcs w) (blocks w) v (templs w).
Definition set_templs (v : list (nat * TD)) (w : World) := mkWorld (files w) (constDecls w) (varDecls w) (typeDecls w)
  (consts w) (vars w) (types w) (fields w) (ielems w) (funcs w) (blocks w) (argss w) v.

(** Reading and writing a table through a pointer; allocation. *)
Definition get {A} (tab : World -> list A) (i : nat) : WM A :=
  fun w => match nth_error (tab w) i with Some a => (Ok a, w) | None => (Panic nil_deref, w) end.
Definition put {A} (tab : World -> list A) (set : list A -> World -> World) (i : nat) (v : A)
  : WM unit :=
  fun w => (Ok tt, set (upd i v (tab w)) w).
Definition alloc {A} (tab : World -> list A) (set : list A -> World -> World) (v : A) : WM nat :=
  fun w => (Ok (List.length (tab w)), set (tab w ++ [v]) w).
Definition rd {A} (tab : World -> list A) (i : nat) (w : World) : res A :=
  match nth_error (tab w) i with Some a => Ok a | None => Panic nil_deref end.

(** for ... range over a list *)
Fixpoint for_each {A S} (f : A -> ST S unit) (l : list A) : ST S unit :=
  match l with
  | [] => sret tt
  | a :: r => do _ <- f a ;; for_each f r
  end.
Fixpoint map_m {A B S} (f : A -> ST S B) (l : list A) : ST S (list B) :=
  match l with
  | [] => sret []
  | a :: r => do b <- f a ;; do s <- map_m f r ;; sret (b :: s)
  end.
(** the buffer written by a loop *)
Fixpoint concat_res (l : list (res string)) : res string :=
  match l with
  | [] => W ""
  | x :: r => x +++ concat_res r
  end.

Definition with_imports (F : GoFile) (i : Imports) : GoFile :=
  mkFile i (FName F) (FFileComment F) (FPackageComment F) (FPackageName F) (FCanonical F) (FElements F).
(** a method call on the Imports embedded in file [f] *)
Definition onImports {A} (f : nat) (m : IM A) : WM A :=
  fun w => match nth_error (files w) f with
           | None => (Panic nil_deref, w)
           | Some F => let '(r, i) := m (FImports F) in (r, set_files (upd f (with_imports F i) (files w)) w)
           end.

(** ** Code blocks: building (code.go:35-110) *)
(** code.go:50-53 Printf, with arguments listed in the call: Go makes a new slice of them. *)
Definition CodeBlock_Printf (cb : nat) (fmt : string) (args : list Arg) : WM unit :=
  do b <- get blocks cb ;;
  do a <- alloc argss set_argss args ;;
  put blocks set_blocks cb (b ++ [Line fmt a]).
(** code.go:50-53 Printf, called with an existing slice as [args...]: the line keeps that slice.
    Simplification: the slice is all of its array. *)
Definition make_args (args : list Arg) : WM nat := alloc argss set_argss args.
Definition CodeBlock_PrintfSlice (cb : nat) (fmt : string) (a : nat) : WM unit :=
  do b <- get blocks cb ;; put blocks set_blocks cb (b ++ [Line fmt a]).
(** code.go:58-60 Printlnf, 37-39 Print, 43-45 Println *)
Definition CodeBlock_Printlnf (cb : nat) (fmt : string) (args : list Arg) : WM unit :=
  CodeBlock_Printf cb (fmt ++ newline)%string args.
Definition CodeBlock_Print (cb : nat) (text : string) : WM unit :=
  CodeBlock_Printf cb "%s" [AString text].
Definition CodeBlock_Println (cb : nat) (text : string) : WM unit :=
  CodeBlock_Printlnf cb "%s" [AString text].
(** code.go:70-73 RenderCode; a template is a number *)
Definition CodeBlock_RenderCode (cb : nat) (template : nat) (data : TD) : WM unit :=
  do b <- get blocks cb ;;
  do t <- alloc templs set_templs (template, data) ;;
  put blocks set_blocks cb (b ++ [Templ t]).
(** code.go:77-80 AddCode *)
Definition CodeBlock_AddCode (cb code : nat) : WM unit :=
  do b <- get blocks cb ;;
  do c <- get blocks code ;;
  put blocks set_blocks cb (b ++ c).
(** &CodeBlock{} and code.go:84-110, the convenience functions *)
Definition NewCodeBlock : WM nat := alloc blocks set_blocks [].
Definition Print (text : string) : WM nat :=
  do cb <- NewCodeBlock ;; do _ <- CodeBlock_Print cb text ;; sret cb.
Definition Println (text : string) : WM nat :=
  do cb <- NewCodeBlock ;; do _ <- CodeBlock_Println cb text ;; sret cb.
Definition Printf (fmt : string) (args : list Arg) : WM nat :=
  do cb <- NewCodeBlock ;; do _ <- CodeBlock_Printf cb fmt args ;; sret cb.
Definition Printlnf (fmt : string) (args : list Arg) : WM nat :=
  do cb <- NewCodeBlock ;; do _ <- CodeBlock_Printlnf cb fmt args ;; sret cb.
Definition RenderCode (template : nat) (data : TD) : WM nat :=
  do cb <- NewCodeBlock ;; do _ <- CodeBlock_RenderCode cb template data ;; sret cb.

(** ** Symbols of declared elements *)
(** model.go:336-341 GoFile.Package *)
Definition GoFile_Package (F : GoFile) : Package :=
  mkPackage (pkgPath (FImports F)) (FPackageName F).
Definition file_package (f : nat) (w : World) : res Package :=
  rbind (rd files f w) (fun F => Ok (GoFile_Package F)).

(** model.go:608-616 ConstSpec.SymbolAt, 814-822 VarSpec.SymbolAt (messages shortened; for a
    spec without a file the index is used first, in the message) *)
Definition ValueSpec_SymbolAt (v : ValueSpec) (i : Z) (w : World) : res Symbol :=
  match (if (i <? 0)%Z then None else nth_error (VNames v) (Z.to_nat i)) with
  | None => Panic index_oob
  | Some name =>
      match VParent v with
      | None => Panic ("cannot use " ++ name ++ " as symbol because it has not been associated with a file")%string
      | Some f => rbind (file_package f w) (fun p => Ok (mkSymbol p name))
      end
  end.
(** model.go:568-573, 774-779 ToSymbol *)
Definition ValueSpec_ToSymbol (v : ValueSpec) (w : World) : res Symbol :=
  if negb (Nat.eqb (List.length (VNames v)) 1)
  then Panic "must be exactly one name to use ToSymbol(); use SymbolAt(int) instead"
  else ValueSpec_SymbolAt v 0 w.
(** model.go:581-600, 787-806 String *)
Definition ValueSpec_String (v : ValueSpec) (w : World) : res string :=
  if negb (Nat.eqb (List.length (VNames v)) 1) then
    match VParent v with
    | None => Ok (join ", " (VNames v))
    | Some _ =>
        rbind (all_ok (map (fun i => rbind (ValueSpec_SymbolAt v (Z.of_nat i) w)
                                           (fun s => Ok (Symbol_String s)))
                           (seq 0 (List.length (VNames v)))))
              (fun l => Ok (join ", " l))
    end
  else match VParent v with
       | None => match VNames v with [] => Panic index_oob | n :: _ => Ok n end
       | Some _ => rbind (ValueSpec_ToSymbol v w) (fun s => Ok (Symbol_String s))
       end.

(** model.go:1069-1080 TypeSpec.ToSymbol *)
Definition TypeSpec_ToSymbol (t : TypeSpec) (w : World) : res Symbol :=
  if String.eqb (TSName t) "" then Panic "cannot use unnamed type as symbol"
  else match TSParent t with
       | None => Panic ("cannot use type " ++ TSName t ++ " as symbol because it has not been associated with a file")%string
       | Some f => rbind (file_package f w) (fun p => Ok (mkSymbol p (TSName t)))
       end.
(** model.go:1104-1109 TypeSpec.ToTypeName *)
Definition TypeSpec_ToTypeName (t : TypeSpec) (w : World) : res TypeName :=
  if String.eqb (TSName t) "" then Ok (TSUnderlying t)
  else rbind (TypeSpec_ToSymbol t w) (fun s => Ok (NamedType s)).

(** model.go:1459-1478 FuncSpec.ToSymbol *)
Definition FuncSpec_ToSymbol (f : FuncSpec) (w : World) : res SymbolOrMethodRef :=
  match FNParent f with
  | None => Panic ("cannot use func " ++ FNName f ++ " as symbol because it has not been associated with a file")%string
  | Some file =>
      rbind (file_package file w) (fun p =>
      match FNReceiver f with
      | Some r => Ok (SomMethod (mkMethodRef (mkSymbol p (RcvType r)) (FNName f)))
      | None => Ok (SomSymbol (mkSymbol p (FNName f)))
      end)
  end.
Definition SymbolOrMethodRef_String (s : SymbolOrMethodRef) : string :=
  match s with SomSymbol s => Symbol_String s | SomMethod m => MethodReference_String m end.
(** model.go:1486-1491 FuncSpec.String *)
Definition FuncSpec_String (f : FuncSpec) (w : World) : res string :=
  match FNParent f, FNReceiver f with
  | Some _, None => rbind (FuncSpec_ToSymbol f w) (fun s => Ok (SymbolOrMethodRef_String s))
  | _, _ => Ok (FNName f)
  end.
(** model.go:1381-1389 InterfaceMethod.ToMethodRef *)
Definition InterfaceMethod_ToMethodRef (name : string) (parent : option nat) (w : World)
  : res MethodReference :=
  match parent with
  | None => Panic ("cannot construct MethodReference for method " ++ name ++ " because it has not been associated with a type")%string
  | Some t => rbind (rd types t w) (fun T =>
              rbind (TypeSpec_ToSymbol T w) (fun s => Ok (mkMethodRef s name)))
  end.
(** model.go:1367-1377 InterfaceMethod.ToTypeName *)
Definition InterfaceMethod_ToTypeName (name : string) (sig : Signature) (parent : option nat) (w : World)
  : res TypeName :=
  match parent with
  | None => Panic ("cannot construct TypeName for method " ++ name ++ " because it has not been associated with a type (no known receiver type)")%string
  | Some t => rbind (rd types t w) (fun T =>
              rbind (TypeSpec_ToTypeName T w) (fun rt =>
              FuncTypeFromSig (mkSig ([mkArg "" rt] ++ Args sig) (Results sig) (IsVariadic sig))))
  end.
(** model.go:1573-1597 FuncSpec.ToTypeName *)
Definition FuncSpec_ToTypeName (f : FuncSpec) (w : World) : res TypeName :=
  match FNReceiver f with
  | Some r =>
      match FNParent f with
      | None => Panic ("cannot determine TypeName for method " ++ FNName f ++ " because it has not been associated with a file")%string
      | Some file =>
          rbind (file_package file w) (fun p =>
          let named := NamedType (mkSymbol p (RcvType r)) in
          rbind (if RcvIsPointer r then PointerType named else Ok named) (fun rt =>
          FuncTypeFromSig (mkSig (mkArg (RcvName r) rt :: Args (FNSig f)) (Results (FNSig f))
                                 (IsVariadic (FNSig f)))))
      end
  | None => FuncTypeFromSig (FNSig f)
  end.

(** ** Receivers (model.go:1651-1708) *)
(** model.go:1651-1656 NewReceiver, 1686-1688 NewPointerReceiver *)
Definition NewReceiver (name rcvrType : string) : res ReceiverSpec :=
  if String.eqb rcvrType "" then Panic "cannot create a ReceiverSpec with an empty receiver type name"
  else Ok (mkReceiver name rcvrType false).
Definition NewPointerReceiver (name rcvrType : string) : res ReceiverSpec :=
  Ok (mkReceiver name rcvrType true).
(** model.go:1661-1681 NewReceiverForType (message shortened) *)
Definition NewReceiverForType (name : string) (t : TypeNameOrSpec) (w : World) : res ReceiverSpec :=
  match t with
  | NoType => Ok (mkReceiver name "" false)
  | IsName t =>
      match tKind t with
      | KindNamed => Ok (mkReceiver name (SymName (tSymbol t)) false)
      | _ => if TypeKind_beq (tKind t) KindPtr && TypeKind_beq (tKind (tElem t)) KindNamed
             then Ok (mkReceiver name (SymName (tSymbol (tElem t))) true)
             else Panic "cannot create a ReceiverSpec for an unnamed type"
      end
  | IsSpec id =>
      rbind (rd types id w) (fun T =>
      if String.eqb (TSName T) "" then Panic "cannot create a pointer ReceiverSpec for an unnamed type"
      else Ok (mkReceiver name (TSName T) false))
  end.
(** model.go:1693-1708 NewPointerReceiverForType *)
Definition NewPointerReceiverForType (name : string) (t : TypeNameOrSpec) (w : World) : res ReceiverSpec :=
  match t with
  | NoType => Ok (mkReceiver name "" true)
  | IsName t =>
      if negb (TypeKind_beq (tKind t) KindNamed)
      then Panic "cannot create a pointer ReceiverSpec for an unnamed type"
      else Ok (mkReceiver name (SymName (tSymbol t)) true)
  | IsSpec id =>
      rbind (rd types id w) (fun T =>
      if String.eqb (TSName T) "" then Panic "cannot create a pointer ReceiverSpec for an unnamed type"
      else Ok (mkReceiver name (TSName T) true))
  end.

(** ** Building specs, declarations and files *)
(** model.go:526-528, 733-735 NewConst / NewVar *)
Definition NewConst (names : list string) : WM nat :=
  alloc consts set_consts (mkValue "" names NoType None None).
Definition NewVar (names : list string) : WM nat :=
  alloc vars set_vars (mkValue "" names NoType None None).
(** The setters of ConstSpec and VarSpec (model.go:534-561, 741-768), over either table *)
Section Setters.
Variables (tab : World -> list ValueSpec) (set : list ValueSpec -> World -> World).
Definition Value_SetComment (id : nat) (c : string) : WM unit :=
  do v <- get tab id ;; put tab set id (mkValue c (VNames v) (VSType v) (VInit v) (VParent v)).
Definition Value_SetType (id : nat) (t : TypeNameOrSpec) : WM unit :=
  do v <- get tab id ;; put tab set id (mkValue (VComment v) (VNames v) t (VInit v) (VParent v)).
Definition Value_SetInitializer (id : nat) (cb : option nat) : WM unit :=
  do v <- get tab id ;; put tab set id (mkValue (VComment v) (VNames v) (VSType v) cb (VParent v)).
Definition Value_Initialize (id : nat) (fmt : string) (args : list Arg) : WM unit :=
  do cb <- Printf fmt args ;; Value_SetInitializer id (Some cb).
Definition Value_setParent (f : nat) (id : nat) : WM unit :=
  do v <- get tab id ;; put tab set id (mkValue (VComment v) (VNames v) (VSType v) (VInit v) (Some f)).
End Setters.

(** model.go:1198-1200 NewField, 1204-1214 SetComment / SetTag *)
Definition NewField (name : string) (t : TypeNameOrSpec) : WM nat :=
  alloc fields set_fields (mkFieldSpec "" name "" t None).
Definition Field_SetComment (id : nat) (c : string) : WM unit :=
  do f <- get fields id ;; put fields set_fields id (mkFieldSpec c (FSName f) (FSTag f) (FSType f) (FSParent f)).
Definition Field_SetTag (id : nat) (tag : string) : WM unit :=
  do f <- get fields id ;; put fields set_fields id (mkFieldSpec (FSComment f) (FSName f) tag (FSType f) (FSParent f)).
Definition Field_setParent (t : nat) (id : nat) : WM unit :=
  do f <- get fields id ;; put fields set_fields id (mkFieldSpec (FSComment f) (FSName f) (FSTag f) (FSType f) (Some t)).

(** model.go:1277-1279 NewInterfaceEmbed, 1322-1324 NewInterfaceMethod, 1302-1304 and
    1407-1409 setParent, 1284-1287 and 1329-1332 SetComment, and the signature setters 1339-1361 *)
Definition NewInterfaceEmbed (s : Symbol) : WM nat := alloc ielems set_ielems (InterfaceEmbed "" s None).
Definition NewInterfaceMethod (name : string) : WM nat :=
  alloc ielems set_ielems (InterfaceMethod "" name (mkSig [] [] false) None).
Definition Elem_SetComment (id : nat) (c : string) : WM unit :=
  do e <- get ielems id ;;
  put ielems set_ielems id
    match e with
    | InterfaceEmbed _ s p => InterfaceEmbed c s p
    | InterfaceMethod _ n s p => InterfaceMethod c n s p
    end.
Definition Elem_setParent (t : nat) (id : nat) : WM unit :=
  do e <- get ielems id ;;
  put ielems set_ielems id
    match e with
    | InterfaceEmbed c s _ => InterfaceEmbed c s (Some t)
    | InterfaceMethod c n s _ => InterfaceMethod c n s (Some t)
    end.
Definition Method_onSignature (id : nat) (g : Signature -> Signature) : WM unit :=
  do e <- get ielems id ;;
  match e with
  | InterfaceMethod c n s p => put ielems set_ielems id (InterfaceMethod c n (g s) p)
  | InterfaceEmbed _ _ _ => sret tt
  end.
Definition Method_AddArg id name t := Method_onSignature id (fun s => Signature_AddArg s name t).
Definition Method_AddResult id name t := Method_onSignature id (fun s => Signature_AddResult s name t).
Definition Method_SetVariadic id v := Method_onSignature id (fun s => Signature_SetVariadic s v).

(** model.go:1436-1444 NewFunc, NewMethod; 1448-1451 SetComment; the signature setters 1497-1519 *)
Definition NewMethod (rcvr : option ReceiverSpec) (name : string) : WM nat :=
  do body <- NewCodeBlock ;;
  alloc funcs set_funcs (mkFunc "" name rcvr (mkSig [] [] false) body None).
Definition NewFunc (name : string) : WM nat := NewMethod None name.
Definition Func_SetComment (id : nat) (c : string) : WM unit :=
  do f <- get funcs id ;; put funcs set_funcs id (mkFunc c (FNName f) (FNReceiver f) (FNSig f) (FNBody f) (FNParent f)).
Definition Func_onSignature (id : nat) (g : Signature -> Signature) : WM unit :=
  do f <- get funcs id ;; put funcs set_funcs id (mkFunc (FNComment f) (FNName f) (FNReceiver f) (g (FNSig f)) (FNBody f) (FNParent f)).
Definition Func_AddArg id name t := Func_onSignature id (fun s => Signature_AddArg s name t).
Definition Func_AddResult id name t := Func_onSignature id (fun s => Signature_AddResult s name t).
Definition Func_SetVariadic id v := Func_onSignature id (fun s => Signature_SetVariadic s v).
Definition Func_setParent (file : nat) (id : nat) : WM unit :=
  do f <- get funcs id ;; put funcs set_funcs id (mkFunc (FNComment f) (FNName f) (FNReceiver f) (FNSig f) (FNBody f) (Some file)).
(** model.go:1523-1564: the code methods of FuncSpec act on its body *)
Definition Func_Print id text : WM unit := do f <- get funcs id ;; CodeBlock_Print (FNBody f) text.
Definition Func_Println id text : WM unit := do f <- get funcs id ;; CodeBlock_Println (FNBody f) text.
Definition Func_Printf id fmt args : WM unit := do f <- get funcs id ;; CodeBlock_Printf (FNBody f) fmt args.
Definition Func_Printlnf id fmt args : WM unit := do f <- get funcs id ;; CodeBlock_Printlnf (FNBody f) fmt args.
Definition Func_RenderCode id t d : WM unit := do f <- get funcs id ;; CodeBlock_RenderCode (FNBody f) t d.
Definition Func_AddCode id cb : WM unit := do f <- get funcs id ;; CodeBlock_AddCode (FNBody f) cb.

(** model.go:945-1001 NewTypeSpec.  The new spec is allocated before its fields, which point to it. *)
Definition NewTypeSpec (typeName : string) (t : TypeNameOrSpec) : WM nat :=
  match t with
  | IsSpec id =>
      do T <- get types id ;;
      fun w => match TypeSpec_ToTypeName T w with
               | Panic m => (Panic m, w)
               | Ok u =>
                   alloc types set_types
                     (mkTypeSpec "" typeName false u
                        (if String.eqb (TSName T) "" then TSStruct T else [])
                        (if String.eqb (TSName T) "" then TSInterface T else []) None) w
               end
  | IsName t =>
      do ret <- alloc types set_types (mkTypeSpec "" typeName false t [] [] None) ;;
      match t with
      | TStruct fs =>
          do ids <- map_m (fun f => alloc fields set_fields
                             (mkFieldSpec "" (FldName f) (FldTag f)
                                (match FldType f with TNil => NoType | ft => IsName ft end) (Some ret))) fs ;;
          do _ <- put types set_types ret (mkTypeSpec "" typeName false t ids [] None) ;;
          sret ret
      | TInterface ms es =>
          do i1 <- map_m (fun e => alloc ielems set_ielems (InterfaceEmbed "" e (Some ret))) es ;;
          do i2 <- map_m (fun m => alloc ielems set_ielems
                             (InterfaceMethod "" (MtdName m) (MtdSig m) (Some ret))) ms ;;
          do _ <- put types set_types ret (mkTypeSpec "" typeName false t [] (i1 ++ i2) None) ;;
          sret ret
      | _ => sret ret
      end
  | NoType => spanic "unknown type representation <nil>"
  end.
(** model.go:937-941 NewTypeAlias *)
Definition NewTypeAlias (typeName : string) (t : TypeNameOrSpec) : WM nat :=
  do id <- NewTypeSpec typeName t ;;
  do T <- get types id ;;
  do _ <- put types set_types id (mkTypeSpec (TSComment T) (TSName T) true (TSUnderlying T)
                                    (TSStruct T) (TSInterface T) (TSParent T)) ;;
  sret id.
(** model.go:1005-1028 NewStructTypeSpec *)
Definition NewStructTypeSpec (typeName : string) (fs : list nat) : WM nat :=
  do ret <- alloc types set_types (mkTypeSpec "" typeName false TNil fs [] None) ;;
  do fts <- map_m (fun id =>
      do _ <- Field_setParent ret id ;;
      do f <- get fields id ;;
      match FSType f with
      | NoType => sret (mkField (FSName f) TNil (FSTag f))
      | IsName t => sret (mkField (FSName f) t (FSTag f))
      | IsSpec ts =>
          do T <- get types ts ;;
          fun w => match TypeSpec_ToTypeName T w with
                   | Panic m => (Panic m, w)
                   | Ok t => (Ok (mkField (FSName f) t (FSTag f)), w)
                   end
      end) fs ;;
  do _ <- put types set_types ret (mkTypeSpec "" typeName false (StructType fts) fs [] None) ;;
  sret ret.
(** model.go:1032-1053 NewInterfaceTypeSpec *)
Definition NewInterfaceTypeSpec (typeName : string) (es : list nat) : WM nat :=
  do ret <- alloc types set_types (mkTypeSpec "" typeName false TNil [] es None) ;;
  do els <- map_m (fun id => do _ <- Elem_setParent ret id ;; get ielems id) es ;;
  let embeds := flat_map (fun e => match e with InterfaceEmbed _ s _ => [s] | _ => [] end) els in
  let methods := flat_map (fun e => match e with InterfaceMethod _ n s _ => [mkMethod n s] | _ => [] end) els in
  do _ <- put types set_types ret (mkTypeSpec "" typeName false (InterfaceType embeds methods) [] es None) ;;
  sret ret.
(** model.go:1059-1062 SetComment, 1122-1124 setParent *)
Definition Type_SetComment (id : nat) (c : string) : WM unit :=
  do T <- get types id ;;
  put types set_types id (mkTypeSpec c (TSName T) (TSIsAlias T) (TSUnderlying T) (TSStruct T) (TSInterface T) (TSParent T)).
Definition Type_setParent (f : nat) (id : nat) : WM unit :=
  do T <- get types id ;;
  put types set_types id (mkTypeSpec (TSComment T) (TSName T) (TSIsAlias T) (TSUnderlying T) (TSStruct T) (TSInterface T) (Some f)).

(** model.go:414-423 and 445-448, 650-659 and 681-684, 856-865 and 887-890: declarations *)
Definition NewConstDecl (cs : list nat) : WM nat := alloc constDecls set_constDecls (mkValueDecl "" cs).
Definition NewVarDecl (vs : list nat) : WM nat := alloc varDecls set_varDecls (mkValueDecl "" vs).
Definition NewTypeDecl (ts : list nat) : WM nat := alloc typeDecls set_typeDecls (mkTypeDecl "" ts).
Definition ConstDecl_AddConst (d c : nat) : WM unit :=
  do D <- get constDecls d ;; put constDecls set_constDecls d (mkValueDecl (VDComment D) (VDSpecs D ++ [c])).
Definition VarDecl_AddVar (d v : nat) : WM unit :=
  do D <- get varDecls d ;; put varDecls set_varDecls d (mkValueDecl (VDComment D) (VDSpecs D ++ [v])).
Definition TypeDecl_AddType (d t : nat) : WM unit :=
  do D <- get typeDecls d ;; put typeDecls set_typeDecls d (mkTypeDecl (TDComment D) (TDTypes D ++ [t])).
Definition ConstDecl_SetComment (d : nat) (c : string) : WM unit :=
  do D <- get constDecls d ;; put constDecls set_constDecls d (mkValueDecl c (VDSpecs D)).
Definition VarDecl_SetComment (d : nat) (c : string) : WM unit :=
  do D <- get varDecls d ;; put varDecls set_varDecls d (mkValueDecl c (VDSpecs D)).
Definition TypeDecl_SetComment (d : nat) (c : string) : WM unit :=
  do D <- get typeDecls d ;; put typeDecls set_typeDecls d (mkTypeDecl c (TDTypes D)).

(** model.go:282-293 NewGoFile *)
Definition NewGoFile (fileName packagePath packageName : string) : WM nat :=
  if negb (String.eqb (filepath_Base fileName) fileName)
  then spanic "Go file name must be a base name with no path"
  else if negb (String.eqb (filepath_Ext fileName) ".go")
  then spanic "Go file name must have a '.go' extension"
  else alloc files set_files (mkFile (NewImportsFor packagePath) fileName "" "" packageName "" []).

(** setParent of the file elements (model.go:468-472, 704-708, 910-914, 1624-1626) *)
Definition setParent (f : nat) (e : FileElement) : WM unit :=
  match e with
  | EConst d => do D <- get constDecls d ;; for_each (Value_setParent consts set_consts f) (VDSpecs D)
  | EVar d => do D <- get varDecls d ;; for_each (Value_setParent vars set_vars f) (VDSpecs D)
  | EType d => do D <- get typeDecls d ;; for_each (Type_setParent f) (TDTypes D)
  | EFunc fn => Func_setParent f fn
  end.
(** model.go:297-301 AddElement, 306-322 AddConst / AddVar / AddType *)
Definition AddElement (f : nat) (e : FileElement) : WM unit :=
  do _ <- setParent f e ;;
  do F <- get files f ;;
  put files set_files f (mkFile (FImports F) (FName F) (FFileComment F) (FPackageComment F)
                           (FPackageName F) (FCanonical F) (FElements F ++ [e])).
Definition AddConst (f c : nat) : WM unit := do d <- NewConstDecl [c] ;; AddElement f (EConst d).
Definition AddVar (f v : nat) : WM unit := do d <- NewVarDecl [v] ;; AddElement f (EVar d).
Definition AddType (f t : nat) : WM unit := do d <- NewTypeDecl [t] ;; AddElement f (EType d).
(** assignments to the exported fields FileComment, PackageComment, CanonicalImportPath *)
Definition SetFileComment (f : nat) (c : string) : WM unit :=
  do F <- get files f ;; put files set_files f (mkFile (FImports F) (FName F) c (FPackageComment F) (FPackageName F) (FCanonical F) (FElements F)).
Definition SetPackageComment (f : nat) (c : string) : WM unit :=
  do F <- get files f ;; put files set_files f (mkFile (FImports F) (FName F) (FFileComment F) c (FPackageName F) (FCanonical F) (FElements F)).
Definition SetCanonical (f : nat) (c : string) : WM unit :=
  do F <- get files f ;; put files set_files f (mkFile (FImports F) (FName F) (FFileComment F) (FPackageComment F) (FPackageName F) c (FElements F)).
(** model.go:325-333 NumElements, ElementAt *)
Definition NumElements (F : GoFile) : nat := List.length (FElements F).
Definition ElementAt (F : GoFile) (i : Z) : res FileElement :=
  match (if (i <? 0)%Z then None else nth_error (FElements F) (Z.to_nat i)) with
  | Some e => Ok e
  | None => Panic index_oob
  end.

(** ** Oracles *)
(** [isPrint]: printability of non-ASCII runes; [fmt_verb]: how fmt renders an argument with a
    verb outside the model; [fmt_other]: fmt on formats outside the model or with too many
    arguments; [tq]: QualifyTemplateData (Template.v); [texec]: template execution. *)
Record Env := mkEnv
  { isPrint : N -> bool;
    fmt_verb : World -> ascii -> Arg -> string;
    fmt_other : World -> string -> list Arg -> string;
    tq : World -> TD -> IM TD;
    texec : World -> nat -> TD -> res string }.
Variable env : Env.

(** ** Qualification *)
(** code.go:152-163: a (possibly pointer to) MethodReference; 176-181, 187-192, 204-209 *)
Definition qualify_method (f : nat) (a : Arg) (mr : MethodReference) : WM Arg :=
  do sym <- onImports f (EnsureImported (MRType mr)) ;;
  sret (if negb (symbol_eqb sym (MRType mr)) then AMethodRefPtr (mkMethodRef sym (MRMethod mr)) else a).
Definition qualify_sym_arg (f : nat) (s : Symbol) : WM Arg :=
  do sym <- onImports f (EnsureImported s) ;; sret (ASymbol sym).
Definition qualify_package (f : nat) (a : Arg) (p : Package) : WM Arg :=
  do n <- onImports f (registerPackage p) ;;
  sret (if negb (String.eqb n (PkgName p)) then APackage (mkPackage (ImportPath p) n) else a).
Definition from_res {A} (g : World -> res A) : WM A := fun w => (g w, w).
(** code.go:139-213: the type switch of line.qualify, for one argument *)
Definition Arg_qualify (f : nat) (a : Arg) : WM Arg :=
  match a with
  | APackage p | APackagePtr p => qualify_package f a p
  | ASymbol s | ASymbolPtr s => qualify_sym_arg f s
  | AMethodRef m | AMethodRefPtr m => qualify_method f a m
  | ASignature s | ASignaturePtr s =>
      do '(s', _) <- onImports f (EnsureAllTypesImported s) ;; sret (ASignaturePtr s')
  | ATypeName t => do '(t', _) <- onImports f (EnsureTypeImported t) ;; sret (ATypeName t')
  | AConst id =>
      do v <- get consts id ;; do s <- from_res (ValueSpec_ToSymbol v) ;; qualify_sym_arg f s
  | AVar id =>
      do v <- get vars id ;; do s <- from_res (ValueSpec_ToSymbol v) ;; qualify_sym_arg f s
  | ATypeSpec id =>
      do t <- get types id ;; do s <- from_res (TypeSpec_ToSymbol t) ;; qualify_sym_arg f s
  | AIMethod id =>
      do e <- get ielems id ;;
      match e with
      | InterfaceMethod _ n _ p => do mr <- from_res (InterfaceMethod_ToMethodRef n p) ;; qualify_method f a mr
      | InterfaceEmbed _ _ _ => spanic nil_deref       (* not an *InterfaceMethod: cannot happen in Go *)
      end
  | AFunc id =>
      do fn <- get funcs id ;;
      do sm <- from_res (FuncSpec_ToSymbol fn) ;;
      match sm with
      | SomSymbol s => qualify_sym_arg f s
      | SomMethod mr => qualify_method f a mr
      end
  | AReflectType t =>
      do t <- slift (TypeNameForReflectType t) ;;
      do '(t', _) <- onImports f (EnsureTypeImported t) ;; sret (ATypeName t')
  | AGoType t =>
      do t <- slift (TypeNameForGoType t) ;;
      do '(t', _) <- onImports f (EnsureTypeImported t) ;; sret (ATypeName t')
  | AGoObject o =>
      do sm <- slift (SymbolForGoObject o) ;;
      match sm with
      | SomSymbol s => qualify_sym_arg f s
      | SomMethod mr => qualify_method f a mr
      end
  | AGoPackage p =>
      do p <- slift (PackageForGoType p) ;;
      do n <- onImports f (registerPackage p) ;; sret (AString n)
  | AString _ | AInt _ | AField _ | AEmbed _ | AOther _ => sret a
  end.
(** code.go:137-215 line.qualify: the array is updated in place, index by index *)
Definition line_qualify_at (f args i : nat) : WM unit :=
  do l <- get argss args ;;
  match nth_error l i with
  | None => sret tt
  | Some a =>
      do a' <- Arg_qualify f a ;;
      do l <- get argss args ;;
      put argss set_argss args (upd i a' l)
  end.
Definition line_qualify (f args : nat) : WM unit :=
  do l <- get argss args ;;
  for_each (line_qualify_at f args) (seq 0 (List.length l)).
(** code.go:233-235 templ.qualify *)
Definition templ_qualify (f t : nat) : WM unit :=
  do '(tmpl, d) <- get templs t ;;
  do d' <- (fun w => onImports f (tq env w d) w) ;;
  put templs set_templs t (tmpl, d').
Definition codeElement_qualify (f : nat) (e : codeElement) : WM unit :=
  match e with
  | Line _ args => line_qualify f args
  | Templ t => templ_qualify f t
  end.
(** code.go:112-116 CodeBlock.qualify *)
Definition CodeBlock_qualify (f cb : nat) : WM unit :=
  do b <- get blocks cb ;; for_each (codeElement_qualify f) b.

(** model.go:1306-1310 InterfaceEmbed.qualify, 1411-1418 InterfaceMethod.qualify (the boolean
    results are used by templates only) *)
Definition InterfaceElement_qualify (f id : nat) : WM unit :=
  do e <- get ielems id ;;
  match e with
  | InterfaceEmbed c s p =>
      do s' <- onImports f (EnsureImported s) ;; put ielems set_ielems id (InterfaceEmbed c s' p)
  | InterfaceMethod c n s p =>
      do '(s', _) <- onImports f (EnsureAllTypesImported s) ;;
      put ielems set_ielems id (InterfaceMethod c n s' p)
  end.

(** model.go:1128-1141 TypeSpec.qualify.  [fuel] bounds the recursion through fields whose type
    is a *TypeSpec: Go does not terminate if those form a cycle. *)
Fixpoint TypeSpec_qualify (fuel : nat) (f id : nat) : WM unit :=
  match fuel with
  | O => spanic out_of_fuel
  | S fuel' =>
      do T <- get types id ;;
      do '(u, _) <- onImports f (EnsureTypeImported (TSUnderlying T)) ;;
      do _ <- put types set_types id
                (mkTypeSpec (TSComment T) (TSName T) (TSIsAlias T) u (TSStruct T) (TSInterface T) (TSParent T)) ;;
      do _ <- for_each (fun fid =>
                do fs <- get fields fid ;;
                match FSType fs with
                | NoType => sret tt
                | IsName t =>
                    do '(t', _) <- onImports f (EnsureTypeImported t) ;;
                    put fields set_fields fid
                      (mkFieldSpec (FSComment fs) (FSName fs) (FSTag fs) (IsName t') (FSParent fs))
                | IsSpec ts => TypeSpec_qualify fuel' f ts
                end) (TSStruct T) ;;
      for_each (InterfaceElement_qualify f) (TSInterface T)
  end.

(** model.go:483-495 qualifyType applied to the Type field of a const or var, then the
    initializer: the loop bodies of 474-481 and 710-717 *)
Definition qualify_value (tab : World -> list ValueSpec) (set : list ValueSpec -> World -> World)
           (fuel f id : nat) : WM unit :=
  do v <- get tab id ;;
  do _ <- match VSType v with
          | NoType => sret tt
          | IsName t =>
              do '(t', _) <- onImports f (EnsureTypeImported t) ;;
              put tab set id (mkValue (VComment v) (VNames v) (IsName t') (VInit v) (VParent v))
          | IsSpec ts => TypeSpec_qualify fuel f ts
          end ;;
  match VInit v with
  | None => sret tt
  | Some cb => CodeBlock_qualify f cb
  end.
(** model.go:474-481 ConstDecl.qualify, 710-717 VarDecl.qualify, 916-920 TypeDecl.qualify,
    1628-1634 FuncSpec.qualify *)
Definition FileElement_qualify (fuel f : nat) (e : FileElement) : WM unit :=
  match e with
  | EConst d => do D <- get constDecls d ;; for_each (qualify_value consts set_consts fuel f) (VDSpecs D)
  | EVar d => do D <- get varDecls d ;; for_each (qualify_value vars set_vars fuel f) (VDSpecs D)
  | EType d => do D <- get typeDecls d ;; for_each (TypeSpec_qualify fuel f) (TDTypes D)
  | EFunc fn =>
      do F <- get funcs fn ;;
      do '(s, _) <- onImports f (EnsureAllTypesImported (FNSig F)) ;;
      do _ <- put funcs set_funcs fn (mkFunc (FNComment F) (FNName F) (FNReceiver F) s (FNBody F) (FNParent F)) ;;
      CodeBlock_qualify f (FNBody F)
  end.
(** model.go:198-200: the first step of WriteGoFile *)
Definition qualify_file (fuel f : nat) : WM unit :=
  do F <- get files f ;; for_each (FileElement_qualify fuel f) (FElements F).

(** ** Rendering *)
(** model.go:377-384 writeComment *)
Definition writeComment (comment : string) : string :=
  if String.eqb comment "" then ""
  else fold_right (fun l r => ("// " ++ l ++ newline ++ r)%string) ""
         (split_on (ch 10) comment).

(** fmt catches a panic of a String method and prints it. *)
Definition caught (verb : ascii) (r : res string) : string :=
  match r with
  | Ok s => s
  | Panic m => ("%!" ++ String verb "(PANIC=String method: " ++ m ++ ")")%string
  end.
(** model.go:1088-1096 TypeSpec.String *)
Definition TypeSpec_String (t : TypeSpec) (w : World) : res string :=
  if String.eqb (TSName t) "" then typeNameToString (isPrint env) (TSUnderlying t)
  else match TSParent t with
       | None => Ok (TSName t)
       | Some _ => rbind (TypeSpec_ToSymbol t w) (fun s => Ok (Symbol_String s))
       end.

(** fmt's rendering of a *Signature, which has no String method: the fields of the struct,
    [&{[{name type} ...] [{name type} ...] variadic}].  A nil interface inside a struct is <nil>
    under every verb; under %s a bool is a bad verb. *)
Definition dump_args (verb : ascii) (l : list ArgType) : string :=
  ("[" ++ join " " (map (fun a =>
      ("{" ++ ArgName a ++ " " ++
       (match ArgTy a with
        | TNil => "<nil>"
        | t => caught verb (typeNameToString (isPrint env) t)
        end) ++ "}")%string) l) ++ "]")%string.
Definition dump_signature (verb : ascii) (s : Signature) : string :=
  let b := if IsVariadic s then "true" else "false" in
  ("&{" ++ dump_args verb (Args s) ++ " " ++ dump_args verb (Results s) ++ " " ++
   (if Ascii.eqb verb "v"%char then b else ("%!" ++ String verb "(bool=" ++ b ++ ")")) ++ "}")%string.

(** The String method of an argument, if it has one ([Some]), or the string itself. *)
Definition arg_string (w : World) (a : Arg) : option (res string) :=
  match a with
  | AString s => Some (Ok s)
  | APackage p | APackagePtr p => Some (Ok (Package_String p))
  | ASymbol s | ASymbolPtr s => Some (Ok (Symbol_String s))
  | AMethodRef m | AMethodRefPtr m => Some (Ok (MethodReference_String m))
  | ATypeName t => Some (typeNameToString (isPrint env) t)
  | AConst id => Some (rbind (rd consts id w) (fun v => ValueSpec_String v w))
  | AVar id => Some (rbind (rd vars id w) (fun v => ValueSpec_String v w))
  | ATypeSpec id => Some (rbind (rd types id w) (fun t => TypeSpec_String t w))
  | AIMethod id | AEmbed id =>
      Some (rbind (rd ielems id w) (fun e =>
            match e with
            | InterfaceEmbed _ s _ => Ok (Symbol_String s)          (* model.go:1291-1293 *)
            | InterfaceMethod _ n _ _ => Ok n                       (* model.go:1394-1396 *)
            end))
  | AFunc id => Some (rbind (rd funcs id w) (fun f => FuncSpec_String f w))
  | AField id => Some (rbind (rd fields id w) (fun f => Ok (FSName f)))  (* model.go:1219-1221 *)
  | _ => None
  end.
(** one verb applied to one argument *)
Definition fmt_arg (w : World) (verb : ascii) (a : Arg) : string :=
  let sv := Ascii.eqb verb "s"%char || Ascii.eqb verb "v"%char in
  match arg_string w a with
  | Some r =>
      if sv then caught verb r
      else if Ascii.eqb verb "q"%char
      then match r with Ok s => Quote (isPrint env) s | Panic _ => caught verb r end
      else fmt_verb env w verb a
  | None =>
      match a with
      | AInt z => if Ascii.eqb verb "d"%char || Ascii.eqb verb "v"%char then decZ z
                  else fmt_verb env w verb a
      | ASignaturePtr s => if sv then dump_signature verb s else fmt_verb env w verb a
      | _ => fmt_verb env w verb a
      end
  end.
(** fmt.Fprintf *)
Definition Fprintf (w : World) (format : string) (args : list Arg) : string :=
  match parse_format format with
  | None => fmt_other env w format args
  | Some l =>
      match apply_format (fmt_arg w) l args with
      | (s, []) => s
      | _ => fmt_other env w format args
      end
  end.

(** code.go:133-135 line.writeTo, 226-231 templ.writeTo *)
Definition codeElement_writeTo (w : World) (e : codeElement) : res string :=
  match e with
  | Line format args => rbind (rd argss args w) (fun l => Ok (Fprintf w format l))
  | Templ t => rbind (rd templs t w) (fun '(tmpl, d) => texec env w tmpl d)
  end.
(** code.go:118-122 CodeBlock.writeTo *)
Definition CodeBlock_writeTo (w : World) (cb : nat) : res string :=
  rbind (rd blocks cb w) (fun b => concat_res (map (codeElement_writeTo w) b)).

(** model.go:618-631 ConstSpec.writeTo, 824-837 VarSpec.writeTo *)
Definition TypeNameOrSpec_text (w : World) (t : TypeNameOrSpec) : string :=
  match t with
  | NoType => ""
  | IsName t => (" " ++ caught "v" (typeNameToString (isPrint env) t))%string
  | IsSpec id => (" " ++ caught "v" (rbind (rd types id w) (fun T => TypeSpec_String T w)))%string
  end.
Definition ValueSpec_writeTo (w : World) (v : ValueSpec) (includeComment : bool) : res string :=
  W (if includeComment then writeComment (VComment v) else "")
  +++ W (join ", " (VNames v))
  +++ W (TypeNameOrSpec_text w (VSType v))
  +++ match VInit v with
      | None => W ""
      | Some cb => W " = " +++ CodeBlock_writeTo w cb
      end
  +++ W newline.

(** The shape common to ConstDecl.writeTo (model.go:452-466), VarDecl.writeTo (688-702) and
    TypeDecl.writeTo (894-908) *)
Definition decl_writeTo {A} (kw comment : string) (specComment : A -> string)
           (write : A -> bool -> res string) (specs : list A) : res string :=
  if Nat.ltb 1 (List.length specs) || negb (String.eqb comment "") then
    W (writeComment comment) +++ W (kw ++ " (" ++ newline)%string
    +++ concat_res (map (fun s => write s true) specs)
    +++ W (")" ++ newline)%string
  else match specs with
       | [] => Panic index_oob
       | s :: _ => W (writeComment (specComment s)) +++ W (kw ++ " ")%string +++ write s false
       end.
Definition rd_all {A} (tab : World -> list A) (ids : list nat) (w : World) : res (list A) :=
  all_ok (map (fun id => rd tab id w) ids).

(** model.go:1297-1300 InterfaceEmbed.writeTo, 1400-1405 InterfaceMethod.writeTo *)
Definition embed_writeTo (comment : string) (s : Symbol) : res string :=
  W (writeComment comment) +++ W (Symbol_String s) +++ W newline.
Definition method_writeTo (comment name : string) (sig : Signature) : res string :=
  W (writeComment comment) +++ W name +++ signatureToBuffer (isPrint env) sig +++ W newline.
Definition InterfaceElement_writeTo (e : InterfaceElement) : res string :=
  match e with
  | InterfaceEmbed c s _ => embed_writeTo c s
  | InterfaceMethod c n s _ => method_writeTo c n s
  end.

(** model.go:1224-1228 and 1246-1255: the parts of FieldSpec.writeTo around the type *)
Definition field_writeTo (comment name tag : string) (type : res string) : res string :=
  W (writeComment comment)
  +++ W (if negb (String.eqb name "") then (name ++ " ")%string else "")
  +++ type
  +++ W (if negb (String.eqb tag "") then (" " ++ tag_literal (isPrint env) tag)%string else "")
  +++ W newline.
(** model.go:1155-1174 writeUnderlying for the spec that NewTypeSpec builds from a TypeName, and
    the TypeName case of FieldSpec.writeTo (1231-1237), which calls it: the recursion
    NewTypeSpec - writeUnderlying - FieldSpec.writeTo over the structure of the TypeName. *)
Fixpoint expand_type (t : TypeName) : res string :=
  match t with
  | TStruct fs =>
      W (" struct {" ++ newline)%string
      +++ concat_res (map (fun f => match f with
            | mkField n ft tag =>
                field_writeTo "" n tag
                  match ft with
                  | TNil => W ""
                  | TStruct _ | TInterface _ _ => expand_type ft
                  | _ => W (caught "v" (typeNameToString (isPrint env) ft))
                  end
            end) fs)
      +++ W ("}" ++ newline)%string
  | TInterface ms es =>
      W (" interface {" ++ newline)%string
      +++ concat_res (map (embed_writeTo "") es)
      +++ concat_res (map (fun m => method_writeTo "" (MtdName m) (MtdSig m)) ms)
      +++ W ("}" ++ newline)%string
  | _ => W " " +++ typeNameToBuffer (isPrint env) t +++ W newline
  end.
(** model.go:1231-1237: the TypeName case of FieldSpec.writeTo *)
Definition field_type_text (t : TypeName) : res string :=
  match t with
  | TNil => W ""
  | TStruct _ | TInterface _ _ => expand_type t
  | _ => W (caught "v" (typeNameToString (isPrint env) t))
  end.
(** model.go:1155-1174 TypeSpec.writeUnderlying and 1223-1256 FieldSpec.writeTo.  [fuel] bounds
    the recursion through unnamed specs. *)
Fixpoint TypeSpec_writeUnderlying (fuel : nat) (w : World) (T : TypeSpec) : res string :=
  match fuel with
  | O => Panic out_of_fuel
  | S fuel' =>
      match TSUnderlying T with
      | TNil => Panic nil_deref
      | TStruct _ =>
          W (" struct {" ++ newline)%string
          +++ concat_res (map (fun id =>
                rbind (rd fields id w) (fun f =>
                field_writeTo (FSComment f) (FSName f) (FSTag f)
                  match FSType f with
                  | NoType => W ""
                  | IsName t => field_type_text t
                  | IsSpec ts =>
                      rbind (rd types ts w) (fun T' =>
                      if String.eqb (TSName T') "" then TypeSpec_writeUnderlying fuel' w T'
                      else rbind (TypeSpec_ToSymbol T' w) (fun s => W (Symbol_String s)))
                  end)) (TSStruct T))
          +++ W ("}" ++ newline)%string
      | TInterface _ _ =>
          W (" interface {" ++ newline)%string
          +++ concat_res (map (fun id => rbind (rd ielems id w) InterfaceElement_writeTo) (TSInterface T))
          +++ W ("}" ++ newline)%string
      | t => W " " +++ typeNameToBuffer (isPrint env) t +++ W newline
      end
  end.
(** model.go:1143-1153 TypeSpec.writeTo *)
Definition TypeSpec_writeTo (fuel : nat) (w : World) (T : TypeSpec) (includeComment : bool) : res string :=
  W (if includeComment then writeComment (TSComment T) else "")
  +++ W (TSName T) +++ W " " +++ W (if TSIsAlias T then "= " else "")
  +++ TypeSpec_writeUnderlying fuel w T.

(** model.go:1601-1622 FuncSpec.writeTo *)
Definition receiver_text (r : option ReceiverSpec) : string :=
  match r with
  | None => ""
  | Some r => ("(" ++ (if negb (String.eqb (RcvName r) "") then RcvName r ++ " " else "")
               ++ (if RcvIsPointer r then "*" else "") ++ RcvType r ++ ") ")%string
  end.
Definition FuncSpec_writeTo (w : World) (f : FuncSpec) : res string :=
  W (writeComment (FNComment f)) +++ W "func " +++ W (receiver_text (FNReceiver f))
  +++ W (FNName f) +++ signatureToBuffer (isPrint env) (FNSig f) +++ W (" {" ++ newline)%string
  +++ CodeBlock_writeTo w (FNBody f) +++ W ("}" ++ newline)%string.

Definition FileElement_writeTo (fuel : nat) (w : World) (e : FileElement) : res string :=
  match e with
  | EConst d =>
      rbind (rd constDecls d w) (fun D => rbind (rd_all consts (VDSpecs D) w) (fun l =>
      decl_writeTo "const" (VDComment D) VComment (ValueSpec_writeTo w) l))
  | EVar d =>
      rbind (rd varDecls d w) (fun D => rbind (rd_all vars (VDSpecs D) w) (fun l =>
      decl_writeTo "var" (VDComment D) VComment (ValueSpec_writeTo w) l))
  | EType d =>
      rbind (rd typeDecls d w) (fun D => rbind (rd_all types (TDTypes D) w) (fun l =>
      decl_writeTo "type" (TDComment D) TSComment (TypeSpec_writeTo fuel w) l))
  | EFunc fn => rbind (rd funcs fn w) (fun f => FuncSpec_writeTo w f)
  end.

(** model.go:343-375 GoFile.writeTo *)
Definition import_line (s : ImportSpec) : string :=
  if negb (String.eqb (PackageAlias s) "")
  then ("import " ++ PackageAlias s ++ " " ++ Quote (isPrint env) (SpecPath s) ++ newline)%string
  else ("import " ++ Quote (isPrint env) (SpecPath s) ++ newline)%string.
Definition package_line (F : GoFile) : string :=
  if negb (String.eqb (FCanonical F) "")
  then ("package " ++ FPackageName F ++ " // import " ++ Quote (isPrint env) (FCanonical F) ++ newline)%string
  else ("package " ++ FPackageName F ++ newline)%string.
Definition GoFile_writeTo (fuel : nat) (w : World) (F : GoFile) : res string :=
  W (writeComment (FFileComment F))
  +++ W (if negb (String.eqb (FFileComment F) "") then newline else "")
  +++ W (writeComment (FPackageComment F))
  +++ W (package_line F)
  +++ W newline
  +++ W (fold_right append "" (map import_line (ImportSpecs (FImports F))))
  +++ concat_res (map (fun e => W newline +++ FileElement_writeTo fuel w e) (FElements F)).
(** The unformatted source produced by WriteGoFile (model.go:196-206): qualification, then text. *)
Definition source (fuel f : nat) : WM string :=
  do _ <- qualify_file fuel f ;;
  do F <- get files f ;;
  from_res (fun w => GoFile_writeTo fuel w F).
End Model.
Arguments Env : clear implicits.
