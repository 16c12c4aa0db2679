(** Specification: when a TypeName describes a go/types or reflect type.  Stated through the
    accessors of TypeName (Kind, Symbol, Elem, Key, Len, Dir, BasicKind, Signature, Fields,
    Methods, Embeds), independently of the conversion code. *)
From Verif Require Import Base Types Conv.

Section Lists.
Context {T : Type}.
Variable rec : T -> TypeName -> Prop.
Fixpoint same_vars (l : list (GoVar_ T)) (a : list ArgType) : Prop :=
  match l, a with
  | [], [] => True
  | mkVar n t :: l, x :: a => ArgName x = n /\ rec t (ArgTy x) /\ same_vars l a
  | _, _ => False
  end.
(** A receiver of non-interface type counts as the first parameter. *)
Definition same_sig (s : GoSig_ T) (x : Signature) : Prop :=
  match s with
  | mkGoSig recv params results variadic =>
      match recv with
      | Recv (mkVar n t) =>
          match Args x with
          | a :: r => ArgName a = n /\ rec t (ArgTy a) /\ same_vars params r
          | [] => False
          end
      | _ => same_vars params (Args x)
      end /\
      same_vars results (Results x) /\ IsVariadic x = variadic
  end.
Fixpoint same_fields (l : list (GoField_ T)) (a : list FieldType) : Prop :=
  match l, a with
  | [], [] => True
  | mkGoField n anon t tag :: l, x :: a =>
      FldName x = (if anon then "" else n) /\ rec t (FldType x) /\ FldTag x = tag /\ same_fields l a
  | _, _ => False
  end.
Fixpoint same_methods (l : list (GoMethod_ T)) (a : list MethodType) : Prop :=
  match l, a with
  | [], [] => True
  | mkGoMethod n s :: l, x :: a => MtdName x = n /\ same_sig s (MtdSig x) /\ same_methods l a
  | _, _ => False
  end.
End Lists.

(** Names of the predeclared basic types, as in types.Typ. *)
Definition basic_kind_name (k : BasicKind) : string :=
  match k with
  | BInvalid => "invalid type" | BBool => "bool" | BInt => "int" | BInt8 => "int8" | BInt16 => "int16"
  | BInt32 => "int32" | BInt64 => "int64" | BUint => "uint" | BUint8 => "uint8" | BUint16 => "uint16"
  | BUint32 => "uint32" | BUint64 => "uint64" | BUintptr => "uintptr" | BFloat32 => "float32"
  | BFloat64 => "float64" | BComplex64 => "complex64" | BComplex128 => "complex128"
  | BString => "string" | BUnsafePointer => "Pointer" | BUntypedBool => "untyped bool"
  | BUntypedInt => "untyped int" | BUntypedRune => "untyped rune" | BUntypedFloat => "untyped float"
  | BUntypedComplex => "untyped complex" | BUntypedString => "untyped string" | BUntypedNil => "untyped nil"
  end.

Fixpoint same_go (t : GoType) (n : TypeName) {struct t} : Prop :=
  match t with
  | GTBasic BUnsafePointer =>
      tKind n = KindNamed /\ tSymbol n = mkSymbol (mkPackage "unsafe" "unsafe") "Pointer"
  | GTBasic k => tKind n = KindBasic /\ Kind_String (tBasicKind n) = basic_kind_name k
  | GTNamed (Some p) name => tKind n = KindNamed /\ tSymbol n = mkSymbol p name
  | GTNamed None name => tKind n = KindNamed /\ tSymbol n = mkSymbol (mkPackage "" "") name
  | GTMap k e => tKind n = KindMap /\ same_go k (tKey n) /\ same_go e (tElem n)
  | GTSlice e => tKind n = KindSlice /\ same_go e (tElem n)
  | GTArray e len => tKind n = KindArray /\ same_go e (tElem n) /\ tLen n = len
  | GTPointer e => tKind n = KindPtr /\ same_go e (tElem n)
  | GTChan d e =>
      tKind n = KindChan /\ same_go e (tElem n) /\
      (d = 0 /\ tDir n = BothDir \/ d = 1 /\ tDir n = SendDir \/ d = 2 /\ tDir n = RecvDir)%Z
  | GTSignature s => tKind n = KindFunc /\ exists x, tSignature n = Some x /\ same_sig same_go s x
  | GTStruct fields => tKind n = KindStruct /\ exists fs, tFields n = Some fs /\ same_fields same_go fields fs
  | GTInterface embeds methods =>
      tKind n = KindInterface /\
      tEmbeds n = Some (map (fun e => mkSymbol match fst e with Some p => p | None => mkPackage "" "" end (snd e)) embeds) /\
      exists ms, tMethods n = Some ms /\ same_methods same_go methods ms
  | GTOther _ => False
  end.

(** Types every part of which can be converted: no name without a package, no untyped or
    invalid basic type, valid lengths and directions, and (as in any valid Go type) a slice
    last in a variadic parameter list. *)
Definition typed_basic (k : BasicKind) : bool :=
  match k with
  | BInvalid | BUntypedBool | BUntypedInt | BUntypedRune | BUntypedFloat | BUntypedComplex
  | BUntypedString | BUntypedNil => false
  | _ => true
  end.
Definition is_go_slice (t : GoType) : bool := match t with GTSlice _ => true | _ => false end.
Definition some_pkg (p : option Package) : bool := match p with Some _ => true | None => false end.
Section Convertible.
Context {T : Type}.
Variable rec : T -> bool.
Definition convertible_vars (l : list (GoVar_ T)) : bool :=
  forallb (fun v => match v with mkVar _ t => rec t end) l.
Definition convertible_sig (s : GoSig_ T) : bool :=
  match s with
  | mkGoSig recv params results _ =>
      convertible_vars params && convertible_vars results &&
      match recv with Recv (mkVar _ t) => rec t | _ => true end
  end.
End Convertible.
Definition variadic_last (s : GoSig) : bool :=
  match s with
  | mkGoSig recv params _ v =>
      negb v ||
      match rev (match recv with Recv r => r :: params | _ => params end) with
      | mkVar _ t :: _ => is_go_slice t
      | [] => false
      end
  end.
Fixpoint convertible (t : GoType) : bool :=
  match t with
  | GTBasic k => typed_basic k
  | GTNamed p _ => some_pkg p
  | GTMap k e => convertible k && convertible e
  | GTSlice e | GTPointer e => convertible e
  | GTArray e n => (0 <=? n)%Z && convertible e
  | GTChan d e => ((0 <=? d) && (d <=? 2))%Z && convertible e
  | GTSignature s => convertible_sig convertible s && variadic_last s
  | GTStruct fields => forallb (fun f => match f with mkGoField _ _ t _ => convertible t end) fields
  | GTInterface embeds methods =>
      forallb (fun e => some_pkg (fst e)) embeds &&
      forallb (fun m => match m with mkGoMethod _ s => convertible_sig convertible s end) methods
  | GTOther _ => false
  end.
(** Valid Go types: as above, but names without a package are fine (predeclared types). *)
Fixpoint valid_go (t : GoType) : bool :=
  match t with
  | GTBasic k => typed_basic k
  | GTNamed _ _ => true
  | GTMap k e => valid_go k && valid_go e
  | GTSlice e | GTPointer e => valid_go e
  | GTArray e n => (0 <=? n)%Z && valid_go e
  | GTChan d e => ((0 <=? d) && (d <=? 2))%Z && valid_go e
  | GTSignature s => convertible_sig valid_go s && variadic_last s
  | GTStruct fields => forallb (fun f => match f with mkGoField _ _ t _ => valid_go t end) fields
  | GTInterface embeds methods =>
      forallb (fun m => match m with mkGoMethod _ s => convertible_sig valid_go s end) methods
  | GTOther _ => false
  end.

(** * reflect *)
Section RLists.
Context {T : Type}.
Variable rec : T -> TypeName -> Prop.
Fixpoint rsame_types (l : list T) (a : list ArgType) : Prop :=
  match l, a with
  | [], [] => True
  | t :: l, x :: a => ArgName x = "" /\ rec t (ArgTy x) /\ rsame_types l a
  | _, _ => False
  end.
Definition rsame_sig (s : RSig_ T) (x : Signature) : Prop :=
  match s with
  | mkRSig ins outs v => rsame_types ins (Args x) /\ rsame_types outs (Results x) /\ IsVariadic x = v
  end.
Fixpoint rsame_fields (l : list (RField_ T)) (a : list FieldType) : Prop :=
  match l, a with
  | [], [] => True
  | mkRField n t tag anon :: l, x :: a =>
      FldName x = (if anon then "" else n) /\ rec t (FldType x) /\ FldTag x = tag /\ rsame_fields l a
  | _, _ => False
  end.
Fixpoint rsame_methods (l : list (RMethod_ T)) (a : list MethodType) : Prop :=
  match l, a with
  | [], [] => True
  | mkRMethod n s :: l, x :: a => MtdName x = n /\ rsame_sig s (MtdSig x) /\ rsame_methods l a
  | _, _ => False
  end.
End RLists.
(** Predeclared basic types become basic TypeNames; other names keep path and name (reflect
    does not know the package's own name, so it stays empty). *)
Fixpoint rsame (t : RType) (n : TypeName) {struct t} : Prop :=
  match t with
  | RNamed k path name =>
      if is_basic k && String.eqb path "" then tKind n = KindBasic /\ tBasicKind n = k
      else tKind n = KindNamed /\ tSymbol n = mkSymbol (mkPackage path "") name
  | RPtr e => tKind n = KindPtr /\ rsame e (tElem n)
  | RSlice e => tKind n = KindSlice /\ rsame e (tElem n)
  | RArray e len => tKind n = KindArray /\ rsame e (tElem n) /\ tLen n = len
  | RMap k e => tKind n = KindMap /\ rsame k (tKey n) /\ rsame e (tElem n)
  | RChan e d => tKind n = KindChan /\ rsame e (tElem n) /\ tDir n = d
  | RFunc s => tKind n = KindFunc /\ exists x, tSignature n = Some x /\ rsame_sig rsame s x
  | RStruct fields => tKind n = KindStruct /\ exists fs, tFields n = Some fs /\ rsame_fields rsame fields fs
  | RInterface methods =>
      tKind n = KindInterface /\ tEmbeds n = Some [] /\
      exists ms, tMethods n = Some ms /\ rsame_methods rsame methods ms
  end.
(** Values the reflect package can produce: named types have a name, lengths and directions are
    valid, a variadic function's last parameter is a slice, fields have names. *)
Section RValid.
Context {T : Type}.
Variable rec : T -> bool.
Variable slice : T -> bool.
Definition rvalid_sig (s : RSig_ T) : bool :=
  match s with
  | mkRSig ins outs v =>
      forallb rec ins && forallb rec outs &&
      (negb v || match rev ins with t :: _ => slice t | [] => false end)
  end.
End RValid.
Definition is_rslice (t : RType) : bool := match t with RSlice _ => true | _ => false end.
Fixpoint rvalid (t : RType) : bool :=
  match t with
  | RNamed _ _ name => negb (String.eqb name "")
  | RPtr e | RSlice e => rvalid e
  | RArray e n => (0 <=? n)%Z && rvalid e
  | RMap k e => rvalid k && rvalid e
  | RChan e d => ((1 <=? d) && (d <=? 3))%Z && rvalid e
  | RFunc s => rvalid_sig rvalid is_rslice s
  | RStruct fields =>
      forallb (fun f => match f with mkRField n t _ _ => negb (String.eqb n "") && rvalid t end) fields
  | RInterface methods => forallb (fun m => match m with mkRMethod _ s => rvalid_sig rvalid is_rslice s end) methods
  end.
(** The fragment that is converted faithfully: no maps, no results, no embedded fields. *)
Fixpoint rplain (t : RType) : bool :=
  match t with
  | RNamed _ _ _ => true
  | RPtr e | RSlice e | RArray e _ | RChan e _ => rplain e
  | RMap _ _ => false
  | RFunc s => match s with mkRSig ins outs _ =>
      match outs with [] => forallb rplain ins | _ => false end end
  | RStruct fields => forallb (fun f => match f with mkRField _ t _ anon => negb anon && rplain t end) fields
  | RInterface methods =>
      forallb (fun m => match m with mkRMethod _ s => match s with mkRSig ins outs _ =>
        match outs with [] => forallb rplain ins | _ => false end end end) methods
  end.
(** The larger fragment that is converted at all, faithfully or not: no maps, no functions with
    results, and no method with more results than parameters. *)
Fixpoint rtaken (t : RType) : bool :=
  match t with
  | RNamed _ _ _ => true
  | RPtr e | RSlice e | RArray e _ | RChan e _ => rtaken e
  | RMap _ _ => false
  | RFunc s => match s with mkRSig ins outs _ =>
      match outs with [] => forallb rtaken ins | _ => false end end
  | RStruct fields => forallb (fun f => match f with mkRField _ t _ _ => rtaken t end) fields
  | RInterface methods =>
      forallb (fun m => match m with mkRMethod _ s => match s with mkRSig ins outs _ =>
        forallb rtaken ins && forallb rtaken outs && Nat.leb (List.length outs) (List.length ins) end end) methods
  end.
