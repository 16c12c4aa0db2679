(** Model of templates.go: qualifying the data of a template.

    reflect values are modelled as finite trees of Go values.  Simplified:
    - pointers are trees: sharing is not represented (two keys of a map that become equal only
      because they hold the same pointer are taken to differ), and cyclic data, on which the Go
      code does not terminate, is outside the model; [TemplateMemory.v] has memory;
    - pointer types have no name of their own;
    - a slice, array, map or struct type is known by its name or literal; the static type of
      an element, field or key is that of the value in it;
    - specs are references to the declarations they copy, interface elements are values;
    - the go/types and reflect values in [val] occur in interfaces only (a field whose static
      type is, say, *types.Named is walked by the Go code field by field);
    - map keys are not NaN;
    - the messages of reflect's panics are named, not reproduced. *)
From Verif Require Import Base GoPath Types Imports Conv World.

(** Go types, as far as the code looks at them: identity, pointers, interfaces. *)
Inductive gty := GName (s : string) | GPtr (e : gty) | GIface (s : string).
Fixpoint gty_eqb (a b : gty) : bool :=
  match a, b with
  | GName s, GName t => String.eqb s t
  | GPtr e, GPtr f => gty_eqb e f
  | GIface s, GIface t => String.eqb s t
  | _, _ => false
  end.

(** *ConstSpec, *VarSpec, *TypeSpec, *FuncSpec, by the place of the declaration *)
Inductive spec := SConst (id : nat) | SVar (id : nat) | SType (id : nat) | SFunc (id : nat).

Inductive val :=
| VIface (t : string) (dyn : option val)              (* an interface and what it holds *)
| VStruct (t : string) (fields : list (bool * val))    (* fields: exported?, value *)
| VPtr (e : gty) (target : option val)
| VSlice (t : string) (elems : list val)
| VArray (t : string) (elems : list val)
| VMap (t : string) (entries : list (val * val))       (* in the order of MapKeys *)
| VPackage (p : Package)
| VSymbol (s : Symbol)
| VMethodRef (m : MethodReference)
| VSignature (s : Signature)
| VSpec (s : spec) (renamed : option string)           (* renamed: parent is &GoFile{PackageName: n} *)
| VElem (e : InterfaceElement)                         (* InterfaceEmbed, InterfaceMethod *)
| VImports (i : Imports)
| VTypeName (t : TypeName)
| VReflectType (t : RType)
| VGoType (t : GoType)
| VGoObject (o : GoObject)
| VGoPackage (p : option Package)
| VOther (t : string) (n : nat).                       (* everything else *)

(** the concrete types behind TypeName (types.go:178-361, constructors 640-755) *)
Definition typename_gty (t : TypeName) : gty :=
  match t with
  | TNil => GName "nil"
  | TBasic _ => GName "gopoet.basicTypeName"
  | TNamed _ => GPtr (GName "gopoet.namedTypeName")
  | TPtr _ => GName "gopoet.ptrTypeName"
  | TSlice _ => GName "gopoet.sliceTypeName"
  | TArray _ _ => GName "gopoet.arrayTypeName"
  | TMap _ _ => GName "gopoet.mapTypeName"
  | TChan _ _ => GName "gopoet.chanTypeName"
  | TFunc _ => GPtr (GName "gopoet.funcTypeName")
  | TStruct _ => GPtr (GName "gopoet.structTypeName")
  | TInterface _ _ => GPtr (GName "gopoet.interfaceTypeName")
  end.
(** reflect.Value.Type *)
Definition typeof (v : val) : gty :=
  match v with
  | VIface t _ => GIface t
  | VStruct t _ | VSlice t _ | VArray t _ | VMap t _ | VOther t _ => GName t
  | VPtr e _ => GPtr e
  | VPackage _ => GName "gopoet.Package"
  | VSymbol _ => GName "gopoet.Symbol"
  | VMethodRef _ => GName "gopoet.MethodReference"
  | VSignature _ => GName "gopoet.Signature"
  | VSpec (SConst _) _ => GName "gopoet.ConstSpec"
  | VSpec (SVar _) _ => GName "gopoet.VarSpec"
  | VSpec (SType _) _ => GName "gopoet.TypeSpec"
  | VSpec (SFunc _) _ => GName "gopoet.FuncSpec"
  | VElem (InterfaceEmbed _ _ _) => GName "gopoet.InterfaceEmbed"
  | VElem (InterfaceMethod _ _ _ _) => GName "gopoet.InterfaceMethod"
  | VImports _ => GName "gopoet.Imports"
  | VTypeName t => typename_gty t
  | VReflectType _ => GPtr (GName "reflect.rtype")
  | VGoType _ => GName "types.Type"              (* one of the implementations of types.Type *)
  | VGoObject _ => GName "types.Object"
  | VGoPackage _ => GPtr (GName "types.Package")
  end.

(** Go's == on types (types.go:178-361), of which at least one is new: pointers to different
    allocations differ, and so do the other values that hold such pointers. *)
Fixpoint same_type (t u : TypeName) : bool :=
  match t, u with
  | TNil, TNil => true
  | TBasic k, TBasic l => Kind_beq k l
  | TPtr a, TPtr b | TSlice a, TSlice b => same_type a b
  | TArray a n, TArray b m => same_type a b && Z.eqb n m
  | TMap a k, TMap b l => same_type a b && same_type k l
  | TChan a d, TChan b e => same_type a b && Z.eqb d e
  | _, _ => false
  end.
(** Go's == on map keys, for two keys of one map of which at least one is new. *)
Fixpoint same_key (a b : val) : bool :=
  let all := fix all (l m : list val) : bool :=
    match l, m with
    | [], [] => true
    | x :: l', y :: m' => same_key x y && all l' m'
    | _, _ => false
    end in
  match a, b with
  | VIface _ None, VIface _ None => true
  | VIface _ (Some x), VIface _ (Some y) => same_key x y
  | VStruct t l, VStruct u m =>
      String.eqb t u &&
      (fix go (l m : list (bool * val)) : bool :=
         match l, m with
         | [], [] => true
         | (_, x) :: l', (_, y) :: m' => same_key x y && go l' m'
         | _, _ => false
         end) l m
  | VArray t l, VArray u m => String.eqb t u && all l m
  | VPtr e None, VPtr f None => gty_eqb e f
  | VPackage p, VPackage q => package_eqb p q
  | VSymbol s, VSymbol t => symbol_eqb s t
  | VMethodRef m, VMethodRef n => symbol_eqb (MRType m) (MRType n) && String.eqb (MRMethod m) (MRMethod n)
  | VTypeName t, VTypeName u => same_type t u
  | VOther t n, VOther u m => String.eqb t u && Nat.eqb n m
  | _, _ => false
  end.
(** reflect.Value.SetMapIndex *)
Fixpoint set_entry (k v : val) (m : list (val * val)) : list (val * val) :=
  match m with
  | [] => [(k, v)]
  | (k', v') :: r => if same_key k k' then (k', v) :: r else (k', v') :: set_entry k v r
  end.

(** the panics of reflect *)
Definition p_unaddressable := "reflect.Value.UnsafeAddr of unaddressable value".
Definition p_slice := "reflect.Value.Slice: slice of unaddressable array".
Definition p_readonly := "reflect: reflect.Value.Set using value obtained using unexported field".
Definition p_assign := "reflect.Set: value is not assignable".

Section Template.
(** Does the type implement the interface?  Method sets are outside the model. *)
Variable implements : gty -> string -> bool.
(** Which getField: templates_unsafe.go:14-27 or templates_no_unsafe.go:11-15. *)
Variable unsafe : bool.
(** The package of the file a spec was added to, if any. *)
Variable parent_of : spec -> res (option Package).

(** reflect.Value.Set: assignability, and conversion to the interface type of the slot *)
Definition assignable (v t : gty) : bool :=
  gty_eqb v t || match t with GIface s => implements v s | _ => false end.
Definition box (slot new : val) : val :=
  match slot with
  | VIface t _ => match new with VIface _ d => VIface t d | _ => VIface t (Some new) end
  | _ => new
  end.
Definition store (slot new : val) : res val :=
  if assignable (typeof new) (typeof slot) then Ok (box slot new) else Panic p_assign.

(** templates.go:56-67: the replacement is used if there is one and it fits the interface *)
Definition replace (t : string) (old new : val) (changed : bool) : IM (val * bool) :=
  sret (if changed && implements (typeof new) t then (new, true) else (old, false)).
(** templates.go:15-52, the gopoet and go/types cases of what an interface holds; None: default *)
Definition replacement (t : string) (old d : val) : option (IM (val * bool)) :=
  match d with
  | VTypeName n =>
      Some (do '(n', c) <- EnsureTypeImported n ;; replace t old (VTypeName n') c)
  | VReflectType r =>
      Some (do n <- slift (TypeNameForReflectType r) ;;
            do '(n', c) <- EnsureTypeImported n ;; replace t old (VTypeName n') c)
  | VGoType g =>
      Some (do n <- slift (TypeNameForGoType g) ;;
            do '(n', c) <- EnsureTypeImported n ;; replace t old (VTypeName n') c)
  | VGoObject o =>
      Some (do sm <- slift (SymbolForGoObject o) ;;
            match sm with
            | SomSymbol s =>
                do s' <- EnsureImported s ;; replace t old (VSymbol s') (negb (symbol_eqb s' s))
            | SomMethod m =>
                do s' <- EnsureImported (MRType m) ;;
                replace t old (VPtr (GName "gopoet.MethodReference") (Some (VMethodRef (mkMethodRef s' (MRMethod m)))))
                        (negb (symbol_eqb s' (MRType m)))
            end)
  | VGoPackage p =>
      Some (do p <- slift (PackageForGoType p) ;;
            do n <- registerPackage p ;;
            replace t old (VPackage (mkPackage (ImportPath p) n)) (negb (String.eqb n (PkgName p))))
  | _ => None
  end.

(** templates.go:182-201: arrays and slices.  [ok] is the outcome of data.Slice(0, i);
    [started]: there is a new array. *)
Section Loops.
Variable rec : val -> IM (val * bool).
Fixpoint elems_loop (ok : res unit) (l : list val) (started : bool) : IM (list val * bool) :=
  match l with
  | [] => sret ([], started)
  | x :: r =>
      do '(x', c) <- rec x ;;
      if started || c then
        do _ <- slift (if started then Ok tt else ok) ;;
        do y <- slift (store x x') ;;
        do '(r', _) <- elems_loop ok r true ;; sret (y :: r', true)
      else do '(r', s) <- elems_loop ok r false ;; sret (x :: r', s)
  end.
(** templates.go:148-172: the fields of a struct; [earlier]: all fields before are exported,
    [addr]: the struct is addressable *)
Definition getField_qualify (addr exported : bool) (x : val) : IM (val * bool) :=
  if exported then rec x
  else if unsafe then (if addr then rec x else spanic p_unaddressable)
  else sret (x, false).
Fixpoint fields_loop (addr earlier : bool) (l : list (bool * val)) (started : bool)
  : IM (list (bool * val) * bool) :=
  match l with
  | [] => sret ([], started)
  | (exported, x) :: r =>
      do '(x', c) <- getField_qualify addr exported x ;;
      if started || c then
        do _ <- slift (if (started || earlier) && exported then Ok tt else Panic p_readonly) ;;
        do y <- slift (store x x') ;;
        do '(r', _) <- fields_loop addr (earlier && exported) r true ;; sret ((exported, y) :: r', true)
      else do '(r', s) <- fields_loop addr (earlier && exported) r false ;; sret ((exported, x) :: r', s)
  end.
(** templates.go:203-226: maps; [m] is the new map, or the entries seen so far *)
Fixpoint map_loop (l m : list (val * val)) (started : bool) : IM (list (val * val) * bool) :=
  match l with
  | [] => sret (m, started)
  | (k, x) :: r =>
      do '(k', ck) <- rec k ;;
      do '(x', cx) <- rec x ;;
      if started || ck || cx then
        do k'' <- slift (store k k') ;;
        do x'' <- slift (store x x') ;;
        map_loop r (set_entry k'' x'' m) true
      else map_loop r (m ++ [(k, x)]) false
  end.
End Loops.

(** templates.go:96-146: the package of a spec's file *)
Definition spec_parent (s : spec) (renamed : option string) : res (option Package) :=
  match renamed with
  | Some n => Ok (Some (mkPackage "" n))      (* &GoFile{PackageName: n}: no import path *)
  | None => parent_of s
  end.

(** templates.go:8-230 qualifyTemplateData.  [addr]: the reflect.Value is addressable.  The
    result may be of another type than [v] only if [v] is an interface, or a pointer to one. *)
Fixpoint qualifyTemplateData (addr : bool) (v : val) : IM (val * bool) :=
  match v with
  | VIface t (Some d) =>
      match replacement t v d with
      | Some m => m
      | None => qualifyTemplateData false d
      end
  | VIface _ None => sret (v, false)
  | VStruct t fields =>
      do '(fields', c) <- fields_loop (qualifyTemplateData addr) addr true fields false ;;
      sret (if c : bool then (VStruct t fields', true) else (v, false))
  | VPtr _ (Some x) =>
      do '(x', c) <- qualifyTemplateData true x ;;
      sret (if c : bool then (VPtr (typeof x') (Some x'), true) else (v, false))
  | VPtr _ None => sret (v, false)
  | VSlice t elems =>
      do '(elems', c) <- elems_loop (qualifyTemplateData true) (Ok tt) elems false ;;
      sret (if c : bool then (VSlice t elems', true) else (v, false))
  | VArray t elems =>
      do '(elems', c) <- elems_loop (qualifyTemplateData addr) (if addr then Ok tt else Panic p_slice) elems false ;;
      sret (if c : bool then (VArray t elems', true) else (v, false))
  | VMap t entries =>
      do '(entries', c) <- map_loop (qualifyTemplateData false) entries [] false ;;
      sret (if c : bool then (VMap t entries', true) else (v, false))
  | VPackage p =>
      do n <- registerPackage p ;;
      sret (if negb (String.eqb n (PkgName p)) then (VPackage (mkPackage (ImportPath p) n), true) else (v, false))
  | VSymbol s =>
      do s' <- EnsureImported s ;;
      sret (if negb (symbol_eqb s' s) then (VSymbol s', true) else (v, false))
  | VMethodRef m =>
      do s' <- EnsureImported (MRType m) ;;
      sret (if negb (symbol_eqb s' (MRType m)) then (VMethodRef (mkMethodRef s' (MRMethod m)), true) else (v, false))
  | VSignature s =>
      do '(s', c) <- EnsureAllTypesImported s ;;
      sret (if c : bool then (VSignature s', true) else (v, false))
  | VSpec s renamed =>
      do parent <- slift (spec_parent s renamed) ;;
      match parent with
      | None => sret (v, false)
      | Some p =>
          do n <- registerPackage p ;;
          sret (if negb (String.eqb n (PkgName p)) then (VSpec s (Some n), true) else (v, false))
      end
  | VElem (InterfaceEmbed c s p) =>
      do s' <- EnsureImported s ;;
      sret (if negb (symbol_eqb s s') then (VElem (InterfaceEmbed c s' p), true) else (v, false))
  | VElem (InterfaceMethod c n s p) =>
      do '(s', ch) <- EnsureAllTypesImported s ;;
      sret (if ch : bool then (VElem (InterfaceMethod c n s' p), true) else (v, false))
  | VImports _ | VOther _ _ => sret (v, false)
  | VTypeName _ | VReflectType _ | VGoType _ | VGoObject _ | VGoPackage _ => sret (v, false)
  end.

(** imports.go:326-336 QualifyTemplateData; nil is None *)
Definition interface_of (v : val) : option val :=
  match v with VIface _ d => d | _ => Some v end.
Definition QualifyTemplateData (data : option val) : IM (option val) :=
  match data with
  | None => sret None
  | Some d =>
      do '(v, _) <- qualifyTemplateData true (VIface "interface {}" (Some d)) ;;
      sret (interface_of v)
  end.
End Template.

(** The parents of specs in a world: spec.parent.Package() *)
Definition world_parent {TD} (w : World TD) (s : spec) : res (option Package) :=
  let package (p : option nat) :=
    match p with
    | None => Ok None
    | Some f => rbind (file_package f w) (fun p => Ok (Some p))
    end in
  match s with
  | SConst id => rbind (rd consts id w) (fun v => package (VParent v))
  | SVar id => rbind (rd vars id w) (fun v => package (VParent v))
  | SType id => rbind (rd types id w) (fun v => package (TSParent v))
  | SFunc id => rbind (rd funcs id w) (fun v => package (FNParent v))
  end.
(** The environment whose templates carry this data. *)
Definition template_env (implements : gty -> string -> bool) (unsafe : bool)
    (isPrint : N -> bool) (verb : World (option val) -> ascii -> Arg -> string)
    (other : World (option val) -> string -> list Arg -> string)
    (texec : World (option val) -> nat -> option val -> res string) : Env (option val) :=
  mkEnv isPrint verb other (fun w d => QualifyTemplateData implements unsafe (world_parent w) d) texec.
