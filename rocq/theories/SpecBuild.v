(** Specification: a description of a file, what it stands for in Go's syntax, and the builder
    calls that follow the description.  The meaning is read off the description alone, without
    any builder object. *)
From Verif Require Import Base GoPath Types SpecTypes Imports SpecImports SpecGo SpecRender World SpecWorld SpecFile SpecDecl SpecQualify.

(** ** Descriptions.  [C]: a piece of code. *)
(** An element of an interface. *)
Inductive idesc :=
| IEmbed (comment : string) (s : Symbol)
| IMethod (comment name : string) (args results : list (string * TypeName)) (variadic : bool).
(** A type: a TypeName, or a type spec without a name. *)
Inductive tdesc :=
| DName (t : TypeName)
| DStruct (fs : list (string * string * string * tdesc))  (* comment, name, tag, type *)
| DInterface (es : list idesc)
| DSpec (t : tdesc).
(** A declared type. *)
Inductive tbody :=
| BodyStruct (fs : list (string * string * string * tdesc))
| BodyInterface (es : list idesc)
| BodyType (t : tdesc)
| BodyAlias (t : tdesc).
Record tsdesc := mkTS { tsName : string; tsComment : string; tsBody : tbody }.
Record vdesc (C : Type) := mkV { vComment : string; vNames : list string; vType : option tdesc; vInit : option C }.
Record fndesc (C : Type) := mkFn
  { fnComment : string; fnReceiver : option ReceiverSpec; fnName : string;
    fnArgs : list (string * TypeName); fnResults : list (string * TypeName); fnVariadic : bool; fnCode : C }.
Arguments mkV {C}. Arguments vComment {C}. Arguments vNames {C}. Arguments vType {C}. Arguments vInit {C}.
Arguments mkFn {C}. Arguments fnComment {C}. Arguments fnReceiver {C}. Arguments fnName {C}. Arguments fnArgs {C}.
Arguments fnResults {C}. Arguments fnVariadic {C}. Arguments fnCode {C}.
(** The declarations of a file.  A group is given by the members it starts with and those that
    are added to it before the group is added to the file. *)
Inductive edesc (C : Type) :=
| DConsts (comment : string) (first more : list (vdesc C)) | DOneConst (v : vdesc C)
| DVars (comment : string) (first more : list (vdesc C)) | DOneVar (v : vdesc C)
| DTypes (comment : string) (first more : list tsdesc) | DOneType (t : tsdesc)
| DFunction (f : fndesc C).
Arguments DConsts {C}. Arguments DOneConst {C}. Arguments DVars {C}. Arguments DOneVar {C}.
Arguments DTypes {C}. Arguments DOneType {C}. Arguments DFunction {C}.
Record filedesc (C : Type) := mkFD
  { fdName : string; fdPath : string; fdPackage : string; fdFileComment : string; fdPackageComment : string;
    fdCanonical : string; fdElements : list (edesc C) }.
Arguments mkFD {C}. Arguments fdName {C}. Arguments fdPath {C}. Arguments fdPackage {C}. Arguments fdFileComment {C}.
Arguments fdPackageComment {C}. Arguments fdCanonical {C}. Arguments fdElements {C}.

(** The pieces of code in order, and the same description with other code. *)
Definition vcodes {C} (v : vdesc C) : list C := match vInit v with Some c => [c] | None => [] end.
Definition ecodes {C} (e : edesc C) : list C :=
  match e with
  | DConsts _ l m | DVars _ l m => flat_map vcodes (l ++ m)
  | DOneConst v | DOneVar v => vcodes v
  | DTypes _ _ _ | DOneType _ => []
  | DFunction f => [fnCode f]
  end.
Definition codes {C} (d : filedesc C) : list C := flat_map ecodes (fdElements d).
Definition vmap {C D} (g : C -> D) (v : vdesc C) : vdesc D :=
  mkV (vComment v) (vNames v) (vType v) (option_map g (vInit v)).
Definition fnmap {C D} (g : C -> D) (f : fndesc C) : fndesc D :=
  mkFn (fnComment f) (fnReceiver f) (fnName f) (fnArgs f) (fnResults f) (fnVariadic f) (g (fnCode f)).
Definition emap {C D} (g : C -> D) (e : edesc C) : edesc D :=
  match e with
  | DConsts c l m => DConsts c (map (vmap g) l) (map (vmap g) m) | DOneConst v => DOneConst (vmap g v)
  | DVars c l m => DVars c (map (vmap g) l) (map (vmap g) m) | DOneVar v => DOneVar (vmap g v)
  | DTypes c l m => DTypes c l m | DOneType t => DOneType t
  | DFunction f => DFunction (fnmap g f)
  end.
Definition fmap {C D} (g : C -> D) (d : filedesc C) : filedesc D :=
  mkFD (fdName d) (fdPath d) (fdPackage d) (fdFileComment d) (fdPackageComment d) (fdCanonical d) (map (emap g) (fdElements d)).
(** Equal up to the code. *)
Definition same_but_code {C D} (a : filedesc C) (b : filedesc D) : Prop := fmap (fun _ => tt) a = fmap (fun _ => tt) b.

(** ** What a description stands for *)
Definition sig_of (args results : list (string * TypeName)) (variadic : bool) : Signature :=
  mkSig (map (fun '(n, t) => mkArg n t) args) (map (fun '(n, t) => mkArg n t) results) variadic.
Definition methods_of (es : list idesc) : list MethodType :=
  flat_map (fun e => match e with IMethod _ n a r v => [mkMethod n (sig_of a r v)] | IEmbed _ _ => [] end) es.
Definition embeds_of (es : list idesc) : list Symbol :=
  flat_map (fun e => match e with IEmbed _ s => [s] | IMethod _ _ _ _ _ => [] end) es.
(** The TypeName of a description, and how deep its type specs nest. *)
Fixpoint type_of (t : tdesc) : TypeName :=
  match t with
  | DName t => t
  | DStruct fs => TStruct (map (fun '(_, n, tag, t) => mkField n (type_of t) tag) fs)
  | DInterface es => TInterface (methods_of es) (embeds_of es)
  | DSpec t => type_of t
  end.
Fixpoint depth (t : tdesc) : nat :=
  match t with
  | DName _ | DInterface _ => 1
  | DStruct fs => S (fold_right Nat.max 0 (map (fun '(_, _, _, t) => depth t) fs))
  | DSpec t => depth t
  end.

Section Meaning.
Variable q : Symbol -> option string.
Definition idesc_meaning (e : idesc) : option gelem :=
  match e with
  | IEmbed _ s => if sym_ok s then Some (inr (q s, SymName s)) else None
  | IMethod _ n a r v =>
      let s := sig_of a r v in
      if ident n && wf_sig s && sig_text_ok s
      then Some (inl (n, fst (denote_sig_with q s), snd (denote_sig_with q s))) else None
  end.
(** The type in the body of a declaration or of a field: over several lines. *)
Fixpoint tdesc_meaning (t : tdesc) : option gotype :=
  match t with
  | DName t => if wf t && decl_ok t then Some (denote_with q t) else None
  | DStruct fs =>
      option_map GStruct (all_some (map (fun '(_, n, tag, t) =>
        obind (tdesc_meaning t) (fun g =>
        if (if String.eqb n "" then names_type g else ident n)
           && (negb (match t with DName t => multi_line t | _ => true end) || String.eqb tag "")
        then Some (opt_name n, g, tag) else None)) fs))
  | DInterface es => option_map GInterface (all_some (map idesc_meaning es))
  | DSpec t => tdesc_meaning t
  end.
Definition tbody_meaning (b : tbody) : option (bool * gotype) :=
  match b with
  | BodyStruct fs => option_map (pair false) (tdesc_meaning (DStruct fs))
  | BodyInterface es => option_map (pair false) (tdesc_meaning (DInterface es))
  | BodyType t => option_map (pair false) (tdesc_meaning t)
  | BodyAlias t => option_map (pair true) (tdesc_meaning t)
  end.
Definition tsdesc_meaning (t : tsdesc) : option (string * bool * gotype) :=
  if ident (tsName t) then option_map (fun '(a, g) => (tsName t, a, g)) (tbody_meaning (tsBody t)) else None.
(** [code]: the text of a piece of code. *)
Context {C : Type}.
Variable code : C -> option string.
(** The tokens of an initial value, of a body: as in [SpecDecl]. *)
Definition init_tokens (c : C) : option (list token) :=
  obind (code c) (fun s => obind (tokens (s ++ newline)) (fun ts =>
  match until_semi 0 ts with Some (i, [_]) => Some i | _ => None end)).
Definition body_tokens (c : C) : option (list token) :=
  obind (code c) (fun s => if whole_lines s then
    obind (tokens s) (fun ts => match until_brace 0 (ts ++ [TOp "}"]) with Some (b, []) => Some b | _ => None end)
  else None).
Definition vdesc_meaning (const : bool) (v : vdesc C) : option gvalue :=
  if negb (match vNames v with [] => true | _ => false end) && forallb ident (vNames v) then
    obind match vType v with
          | None => Some None
          | Some t => if wf (type_of t) && text_ok (type_of t) then Some (Some (denote_with q (type_of t))) else None
          end (fun t =>
    obind match vInit v with None => Some None | Some c => option_map Some (init_tokens c) end (fun i =>
    if value_form const t i then Some (vNames v, t, i) else None))
  else None.
Definition fndesc_meaning (f : fndesc C) : option gdecl :=
  let s := sig_of (fnArgs f) (fnResults f) (fnVariadic f) in
  if ident (fnName f) && wf_sig s && sig_text_ok s
     && match fnReceiver f with
        | None => true
        | Some r => (String.eqb (RcvName r) "" || ident (RcvName r)) && ident (RcvType r)
        end
  then obind (body_tokens (fnCode f)) (fun b =>
       Some (DFunc (option_map (fun r => (opt_name (RcvName r), RcvIsPointer r, RcvType r)) (fnReceiver f))
                   (fnName f) (denote_sig_with q s) b))
  else None.
(** A group of declarations; one member without a comment for the group is not parenthesised,
    no member and no comment is not possible. *)
Definition group_meaning {A B} (m : A -> option B) (k : bool -> list B -> gdecl) (comment : string) (l : list A) : option gdecl :=
  if negb (Nat.eqb (List.length l) 0) || negb (String.eqb comment "")
  then option_map (k (grouped comment l)) (all_some (map m l)) else None.
Definition edesc_meaning (e : edesc C) : option gdecl :=
  match e with
  | DConsts c l m => group_meaning (vdesc_meaning true) DConst c (l ++ m)
  | DOneConst v => option_map (fun x => DConst false [x]) (vdesc_meaning true v)
  | DVars c l m => group_meaning (vdesc_meaning false) DVar c (l ++ m)
  | DOneVar v => option_map (fun x => DVar false [x]) (vdesc_meaning false v)
  | DTypes c l m => group_meaning tsdesc_meaning DType c (l ++ m)
  | DOneType t => option_map (fun x => DType false [x]) (tsdesc_meaning t)
  | DFunction f => fndesc_meaning f
  end.
(** A new file has no imports yet. *)
Definition filedesc_meaning (d : filedesc C) : option gfile :=
  if ident (fdPackage d)
  then option_map (mkGFile (fdPackage d) []) (all_some (map edesc_meaning (fdElements d))) else None.
End Meaning.
Definition tbody_depth (b : tbody) : nat :=
  match b with BodyStruct fs => depth (DStruct fs) | BodyInterface _ => 1 | BodyType t | BodyAlias t => depth t end.
Definition edesc_depth {C} (e : edesc C) : nat :=
  match e with
  | DTypes _ l m => fold_right Nat.max 0 (map (fun t => tbody_depth (tsBody t)) (l ++ m))
  | DOneType t => tbody_depth (tsBody t)
  | _ => 0
  end.
Definition filedesc_depth {C} (d : filedesc C) : nat := fold_right Nat.max 0 (map edesc_depth (fdElements d)).

(** ** The calls that follow a description *)
Section Build.
Context {TD : Type}.
(** A call that adds code; [KCode] adds another block. *)
Inductive chunk :=
| KPrint (text : string) | KPrintln (text : string)
| KPrintf (format : string) (args : list Arg) | KPrintlnf (format : string) (args : list Arg)
| KRender (template : nat) (data : TD) | KCode (l : list chunk).
Fixpoint chunk_parts (c : chunk) : list (part TD) :=
  match c with
  | KPrint t => [PFormat "%s" [AString t]]
  | KPrintln t => [PFormat ("%s" ++ newline) [AString t]]
  | KPrintf f a => [PFormat f a]
  | KPrintlnf f a => [PFormat (f ++ newline) a]
  | KRender t d => [PTemplate t d]
  | KCode l => flat_map chunk_parts l
  end.
Notation WM := (WM (TD := TD)).
(** Through the function of the package if it is one call, else on an empty block. *)
Fixpoint add_chunk (cb : nat) (c : chunk) : WM unit :=
  match c with
  | KPrint t => CodeBlock_Print cb t
  | KPrintln t => CodeBlock_Println cb t
  | KPrintf f a => CodeBlock_Printf cb f a
  | KPrintlnf f a => CodeBlock_Printlnf cb f a
  | KRender t d => CodeBlock_RenderCode cb t d
  | KCode l =>
      do b <- NewCodeBlock ;;
      do _ <- (fix all l := match l with [] => sret tt | c :: r => do _ <- add_chunk b c ;; all r end) l ;;
      CodeBlock_AddCode cb b
  end.
Definition new_block (l : list chunk) : WM nat :=
  match l with
  | [KPrint t] => Print t
  | [KPrintln t] => Println t
  | [KPrintf f a] => Printf f a
  | [KPrintlnf f a] => Printlnf f a
  | [KRender t d] => RenderCode t d
  | _ => do b <- NewCodeBlock ;; do _ <- for_each (add_chunk b) l ;; sret b
  end.
Definition func_chunk (fn : nat) (c : chunk) : WM unit :=
  match c with
  | KPrint t => Func_Print fn t
  | KPrintln t => Func_Println fn t
  | KPrintf f a => Func_Printf fn f a
  | KPrintlnf f a => Func_Printlnf fn f a
  | KRender t d => Func_RenderCode fn t d
  | KCode l => do b <- new_block l ;; Func_AddCode fn b
  end.

Definition build_elem (e : idesc) : WM nat :=
  match e with
  | IEmbed c s => do id <- NewInterfaceEmbed s ;; do _ <- Elem_SetComment id c ;; sret id
  | IMethod c n a r v =>
      do id <- NewInterfaceMethod n ;;
      do _ <- Elem_SetComment id c ;;
      do _ <- for_each (fun '(n, t) => Method_AddArg id n t) a ;;
      do _ <- for_each (fun '(n, t) => Method_AddResult id n t) r ;;
      do _ <- Method_SetVariadic id v ;;
      sret id
  end.
Definition build_field (comment name tag : string) (x : TypeNameOrSpec) : WM nat :=
  do id <- NewField name x ;; do _ <- Field_SetComment id comment ;; do _ <- Field_SetTag id tag ;; sret id.
Fixpoint build_type (t : tdesc) : WM TypeNameOrSpec :=
  match t with
  | DName t => sret (IsName t)
  | DStruct fs =>
      do ids <- (fix each fs := match fs with
                 | [] => sret []
                 | (c, n, tag, t) :: r =>
                     do x <- build_type t ;; do id <- build_field c n tag x ;; do ids <- each r ;; sret (id :: ids)
                 end) fs ;;
      do id <- NewStructTypeSpec "" ids ;; sret (IsSpec id)
  | DInterface es =>
      do ids <- map_m build_elem es ;; do id <- NewInterfaceTypeSpec "" ids ;; sret (IsSpec id)
  | DSpec t => do x <- build_type t ;; do id <- NewTypeSpec "" x ;; sret (IsSpec id)
  end.
Fixpoint build_fields (fs : list (string * string * string * tdesc)) : WM (list nat) :=
  match fs with
  | [] => sret []
  | (c, n, tag, t) :: r =>
      do x <- build_type t ;; do id <- build_field c n tag x ;; do ids <- build_fields r ;; sret (id :: ids)
  end.
Definition build_typespec (t : tsdesc) : WM nat :=
  do id <- match tsBody t with
           | BodyStruct fs => do ids <- build_fields fs ;; NewStructTypeSpec (tsName t) ids
           | BodyInterface es => do ids <- map_m build_elem es ;; NewInterfaceTypeSpec (tsName t) ids
           | BodyType b => do x <- build_type b ;; NewTypeSpec (tsName t) x
           | BodyAlias b => do x <- build_type b ;; NewTypeAlias (tsName t) x
           end ;;
  do _ <- Type_SetComment id (tsComment t) ;; sret id.

(** [new], [tab], [set]: NewConst and the consts, or NewVar and the vars.  Returns the spec and
    the description with the code block of its initial value. *)
Definition build_value (new : list string -> WM nat) (tab : World TD -> list ValueSpec)
    (set : list ValueSpec -> World TD -> World TD) (v : vdesc (list chunk)) : WM (nat * vdesc nat) :=
  do id <- new (vNames v) ;;
  do _ <- Value_SetComment tab set id (vComment v) ;;
  do _ <- match vType v with None => sret tt | Some t => do x <- build_type t ;; Value_SetType tab set id x end ;;
  do i <- match vInit v with
          | None => sret None
          | Some [KPrintf f a] =>
              do _ <- Value_Initialize tab set id f a ;;
              do s <- get tab id ;; sret (VInit s)
          | Some l => do cb <- new_block l ;; do _ <- Value_SetInitializer tab set id (Some cb) ;; sret (Some cb)
          end ;;
  sret (id, mkV (vComment v) (vNames v) (vType v) i).
Definition build_values new tab set (l : list (vdesc (list chunk))) : WM (list nat * list (vdesc nat)) :=
  do r <- map_m (build_value new tab set) l ;; sret (map fst r, map snd r).
Definition build_func (f : fndesc (list chunk)) : WM (nat * fndesc nat) :=
  do id <- match fnReceiver f with None => NewFunc (fnName f) | Some r => NewMethod (Some r) (fnName f) end ;;
  do _ <- Func_SetComment id (fnComment f) ;;
  do _ <- for_each (fun '(n, t) => Func_AddArg id n t) (fnArgs f) ;;
  do _ <- for_each (fun '(n, t) => Func_AddResult id n t) (fnResults f) ;;
  do _ <- Func_SetVariadic id (fnVariadic f) ;;
  do _ <- for_each (func_chunk id) (fnCode f) ;;
  do F <- get funcs id ;;
  sret (id, mkFn (fnComment f) (fnReceiver f) (fnName f) (fnArgs f) (fnResults f) (fnVariadic f) (FNBody F)).
Definition build_element (f : nat) (e : edesc (list chunk)) : WM (edesc nat) :=
  match e with
  | DConsts c l m =>
      do ' (ids, l') <- build_values NewConst consts set_consts l ;;
      do d <- NewConstDecl ids ;;
      do ' (ids, m') <- build_values NewConst consts set_consts m ;;
      do _ <- for_each (ConstDecl_AddConst d) ids ;;
      do _ <- ConstDecl_SetComment d c ;;
      do _ <- AddElement f (EConst d) ;; sret (DConsts c l' m')
  | DOneConst v =>
      do ' (id, v') <- build_value NewConst consts set_consts v ;; do _ <- AddConst f id ;; sret (DOneConst v')
  | DVars c l m =>
      do ' (ids, l') <- build_values NewVar vars set_vars l ;;
      do d <- NewVarDecl ids ;;
      do ' (ids, m') <- build_values NewVar vars set_vars m ;;
      do _ <- for_each (VarDecl_AddVar d) ids ;;
      do _ <- VarDecl_SetComment d c ;;
      do _ <- AddElement f (EVar d) ;; sret (DVars c l' m')
  | DOneVar v =>
      do ' (id, v') <- build_value NewVar vars set_vars v ;; do _ <- AddVar f id ;; sret (DOneVar v')
  | DTypes c l m =>
      do ids <- map_m build_typespec l ;;
      do d <- NewTypeDecl ids ;;
      do ids <- map_m build_typespec m ;;
      do _ <- for_each (TypeDecl_AddType d) ids ;;
      do _ <- TypeDecl_SetComment d c ;;
      do _ <- AddElement f (EType d) ;; sret (DTypes c l m)
  | DOneType t => do id <- build_typespec t ;; do _ <- AddType f id ;; sret (DOneType t)
  | DFunction fn => do ' (id, fn') <- build_func fn ;; do _ <- AddElement f (EFunc id) ;; sret (DFunction fn')
  end.
Definition build_file (d : filedesc (list chunk)) : WM (nat * filedesc nat) :=
  do f <- NewGoFile (fdName d) (fdPath d) (fdPackage d) ;;
  do _ <- SetFileComment f (fdFileComment d) ;;
  do _ <- SetPackageComment f (fdPackageComment d) ;;
  do _ <- SetCanonical f (fdCanonical d) ;;
  do es <- map_m (build_element f) (fdElements d) ;;
  sret (f, mkFD (fdName d) (fdPath d) (fdPackage d) (fdFileComment d) (fdPackageComment d) (fdCanonical d) es).
End Build.
Arguments chunk : clear implicits.

(** ** Objects that are as described *)
Definition pre {A} (l l' : list A) : Prop := forall i x, nth_error l i = Some x -> nth_error l' i = Some x.
Section All2.
Context {A B : Type}.
Variable R : A -> B -> Prop.
Fixpoint all2 (l : list A) (m : list B) {struct m} : Prop :=
  match m with
  | [] => l = []
  | b :: m' => match l with a :: l' => R a b /\ all2 l' m' | [] => False end
  end.
End All2.
Section Mirror.
Context {TD : Type}.
Notation World := (World TD).
Notation parts := (list (list (part TD))).
Implicit Types w : World.
(** Objects may be new; those there were are as before, files apart. *)
Definition grown w w' : Prop :=
  (pre (constDecls w) (constDecls w') /\ pre (varDecls w) (varDecls w') /\ pre (typeDecls w) (typeDecls w')) /\
  (pre (consts w) (consts w') /\ pre (vars w) (vars w') /\ pre (funcs w) (funcs w')) /\
  (pre (types w) (types w') /\ pre (fields w) (fields w') /\ pre (ielems w) (ielems w')).
(** Block [cb] has the planned parts. *)
Definition block_is (m : parts) (l : list (chunk TD)) (cb : nat) : Prop := nth_error m cb = Some (flat_map chunk_parts l).
(** The contents of a type spec *)
Definition elem_is w (id : nat) (e : idesc) : Prop :=
  exists p, nth_error (ielems w) id = Some match e with
    | IEmbed c s => InterfaceEmbed c s p
    | IMethod c n a r v => InterfaceMethod c n (sig_of a r v) p
    end.
(** ... of one made from a TypeName *)
Definition name_contents w (T : TypeSpec) (n : TypeName) : Prop :=
  match n with
  | TStruct fs => TSInterface T = [] /\ all2 (fun id f => exists F, nth_error (fields w) id = Some F /\
      FSComment F = "" /\ FSName F = FldName f /\ FSTag F = FldTag f /\
      FSType F = match FldType f with TNil => NoType | t => IsName t end) (TSStruct T) fs
  | TInterface ms es => TSStruct T = [] /\ all2 (elem_is w) (TSInterface T)
      (map (IEmbed "") es ++ map (fun m => IMethod "" (MtdName m) (map (fun a => (ArgName a, ArgTy a)) (Args (MtdSig m)))
          (map (fun a => (ArgName a, ArgTy a)) (Results (MtdSig m))) (IsVariadic (MtdSig m))) ms)
  | _ => TSStruct T = [] /\ TSInterface T = []
  end.
Fixpoint contents w (T : TypeSpec) (t : tdesc) {struct t} : Prop :=
  TSUnderlying T = type_of t /\
  match t with
  | DName n => name_contents w T n
  | DStruct fs => TSInterface T = [] /\ all2 (fun id '(c, n, tag, t) =>
      exists F, nth_error (fields w) id = Some F /\ FSComment F = c /\ FSName F = n /\ FSTag F = tag /\
      match t with
      | DName nm => FSType F = IsName nm
      | _ => exists i T', FSType F = IsSpec i /\ nth_error (types w) i = Some T' /\ TSName T' = "" /\ contents w T' t
      end) (TSStruct T) fs
  | DInterface es => TSStruct T = [] /\ all2 (elem_is w) (TSInterface T) es
  | DSpec t => contents w T t
  end.
Definition typed w (x : TypeNameOrSpec) (t : tdesc) : Prop :=
  match t with
  | DName nm => x = IsName nm
  | _ => exists i T', x = IsSpec i /\ nth_error (types w) i = Some T' /\ TSName T' = "" /\ contents w T' t
  end.
Definition field_is w (id : nat) (f : string * string * string * tdesc) : Prop :=
  let '(c, n, tag, t) := f in
  exists F, nth_error (fields w) id = Some F /\ FSComment F = c /\ FSName F = n /\ FSTag F = tag /\ typed w (FSType F) t.

Definition body_type (b : tbody) : tdesc :=
  match b with BodyStruct fs => DStruct fs | BodyInterface es => DInterface es | BodyType t | BodyAlias t => t end.
Definition body_alias (b : tbody) : bool := match b with BodyAlias _ => true | _ => false end.
Definition type_is w (T : TypeSpec) (d : tsdesc) : Prop :=
  TSName T = tsName d /\ TSComment T = tsComment d /\ TSIsAlias T = body_alias (tsBody d) /\ contents w T (body_type (tsBody d)).
Definition value_is w (V : ValueSpec) (v : vdesc nat) : Prop :=
  VComment V = vComment v /\ VNames V = vNames v /\ VInit V = vInit v /\
  match vType v with None => VSType V = NoType | Some t => typed w (VSType V) t end.
Definition values_are f w (tab : list ValueSpec) (D : ValueDecl) (c : string) (vs : list (vdesc nat)) : Prop :=
  VDComment D = c /\ exists Vs, lookup_all tab (VDSpecs D) = Some Vs /\
    Forall2 (fun V v => value_is w V v /\ VParent V = Some f) Vs vs.
Definition types_are f w (D : TypeDecl) (c : string) (ts : list tsdesc) : Prop :=
  TDComment D = c /\ exists Ts, lookup_all (types w) (TDTypes D) = Some Ts /\
    Forall2 (fun T t => type_is w T t /\ TSParent T = Some f) Ts ts.
Definition func_is (F : FuncSpec) (d : fndesc nat) : Prop :=
  FNComment F = fnComment d /\ FNName F = fnName d /\ FNReceiver F = fnReceiver d /\
  FNSig F = sig_of (fnArgs d) (fnResults d) (fnVariadic d) /\ FNBody F = fnCode d.
Definition element_is f w (e : FileElement) (d : edesc nat) : Prop :=
  match e with
  | EConst i => exists D, nth_error (constDecls w) i = Some D /\
      match d with DConsts c l m => values_are f w (consts w) D c (l ++ m) | DOneConst v => values_are f w (consts w) D "" [v] | _ => False end
  | EVar i => exists D, nth_error (varDecls w) i = Some D /\
      match d with DVars c l m => values_are f w (vars w) D c (l ++ m) | DOneVar v => values_are f w (vars w) D "" [v] | _ => False end
  | EType i => exists D, nth_error (typeDecls w) i = Some D /\
      match d with DTypes c l m => types_are f w D c (l ++ m) | DOneType t => types_are f w D "" [t] | _ => False end
  | EFunc i => exists F, nth_error (funcs w) i = Some F /\
      match d with DFunction d => func_is F d /\ FNParent F = Some f | _ => False end
  end.
Definition file_is w (f : nat) (d : filedesc nat) : Prop := exists F, nth_error (files w) f = Some F /\
  FName F = fdName d /\ pkgPath (FImports F) = fdPath d /\ ImportSpecs (FImports F) = [] /\ FPackageName F = fdPackage d /\
  FFileComment F = fdFileComment d /\ FPackageComment F = fdPackageComment d /\ FCanonical F = fdCanonical d /\
  Forall2 (element_is f w) (FElements F) (fdElements d).
End Mirror.

(** ** What a description mentions *)
Definition vdesc_symbols {C} (v : vdesc C) : list Symbol := match vType v with Some t => symbols_of (type_of t) | None => [] end.
Definition tsdesc_symbols (t : tsdesc) : list Symbol := symbols_of (type_of (body_type (tsBody t))).
Definition edesc_symbols {C} (e : edesc C) : list Symbol :=
  match e with
  | DConsts _ l m | DVars _ l m => flat_map vdesc_symbols (l ++ m)
  | DOneConst v | DOneVar v => vdesc_symbols v
  | DTypes _ l m => flat_map tsdesc_symbols (l ++ m)
  | DOneType t => tsdesc_symbols t
  | DFunction f => sig_symbols (sig_of (fnArgs f) (fnResults f) (fnVariadic f))
  end.
Definition filedesc_symbols {C} (d : filedesc C) : list Symbol := flat_map edesc_symbols (fdElements d).
(** [x]: what an argument in the planned code refers to *)
Definition code_mentions {TD} (w : World TD) (d : filedesc (list (chunk TD))) (x : reference) : Prop :=
  exists l format args a, In l (codes d) /\ In (PFormat format args) (flat_map chunk_parts l) /\ In a args /\ refers_to w a = Some x.
(** The planned code uses no templates. *)
Definition no_template_code {TD} (d : filedesc (list (chunk TD))) : Prop :=
  forall l t data, In l (codes d) -> ~ In (PTemplate t data) (flat_map chunk_parts l).
