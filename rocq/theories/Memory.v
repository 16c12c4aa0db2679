(** Model of types.go and of the rewriting in imports.go once more, this time with memory: what
    [Types.v] and [Imports.v] treat as values lives here in objects and arrays which several
    TypeNames, signatures and slices may share.
    Simplifications: slices start at the first cell of their array; arrays hold cells of any of
    the four element types (the code never confuses them). *)
From Verif Require Import Base GoPath Types Imports.

(** A slice: nil, or the first cells of an array; the capacity is the length of the array. *)
Inductive slice := SNil | SArr (a len : nat).
Definition s_len (s : slice) : nat := match s with SNil => 0 | SArr _ n => n end.
(** imports.go:239-243 sameSlice *)
Definition sameSlice (s1 s2 : slice) : bool :=
  match s1, s2 with
  | SNil, SNil => true
  | SArr a n, SArr b k => Nat.eqb a b && Nat.eqb n k
  | _, _ => false
  end.
(** types.go:178-373: the values of the interface TypeName.  basicTypeName, ptrTypeName,
    sliceTypeName, arrayTypeName, mapTypeName and chanTypeName are values, the others pointers. *)
Inductive mty :=
| MNil
| MBasic (k : Kind)
| MPtr (e : mty)
| MSlice (e : mty)
| MArray (e : mty) (n : Z)
| MMap (e k : mty)
| MChan (e : mty) (d : Z)
| MNamed (p : nat)
| MFunc (p : nat)
| MStruct (p : nat)
| MInterface (p : nat).
(** Go's == on TypeNames *)
Definition mty_eq : forall a b : mty, {a = b} + {a <> b}.
Proof. decide equality; try apply Nat.eq_dec; try apply Z.eq_dec. decide equality. Defined.
(** types.go:125-129 Signature; 160-176 ArgType, FieldType, MethodType; Symbol *)
Record msig := mkMSig { ms_args : slice; ms_results : slice; ms_variadic : bool }.
Inductive cell :=
| CArg (name : string) (t : mty)
| CField (name : string) (t : mty) (tag : string)
| CMethod (name : string) (s : msig)
| CSym (s : Symbol).
Inductive obj :=
| ONamed (s : Symbol)
| OSig (s : msig)
| OStruct (fs : slice)
| OInterface (ms es : slice).
Record mem := mkMem { objs : list obj; arrays : list (list cell) }.
Definition MEM (A : Type) := ST mem A.

Definition new_obj (o : obj) : MEM nat := fun m => (Ok (List.length (objs m)), mkMem (objs m ++ [o]) (arrays m)).
Definition new_array (l : list cell) : MEM nat := fun m => (Ok (List.length (arrays m)), mkMem (objs m) (arrays m ++ [l])).
Fixpoint replace {A} (i : nat) (v : A) (l : list A) : list A :=
  match l, i with
  | [], _ => []
  | _ :: r, O => v :: r
  | x :: r, S i => x :: replace i v r
  end.
Definition set_obj (p : nat) (o : obj) : MEM unit := fun m => (Ok tt, mkMem (replace p o (objs m)) (arrays m)).
(** a[i] = c *)
Definition set_cell (a i : nat) (c : cell) : MEM unit :=
  fun m => (Ok tt, mkMem (objs m) (replace a (replace i c (nth a (arrays m) [])) (arrays m))).
Definition get_sig (p : nat) : MEM msig :=
  fun m => (match nth_error (objs m) p with Some (OSig s) => Ok s | _ => Panic nil_deref end, m).
(** the cells of a slice *)
Definition cells (m : mem) (s : slice) : option (list cell) :=
  match s with
  | SNil => Some []
  | SArr a n => match nth_error (arrays m) a with
                | Some l => if Nat.leb n (List.length l) then Some (firstn n l) else None
                | None => None
                end
  end.
Definition get_cells (s : slice) : MEM (list cell) :=
  fun m => (match cells m s with Some l => Ok l | None => Panic index_oob end, m).
(** a fresh slice with these cells and no room for more *)
Definition new_slice (l : list cell) : MEM slice := do a <- new_array l ;; sret (SArr a (List.length l)).

Definition m_nil (t : mty) : bool := match t with MNil => true | _ => false end.
Definition m_slice (t : mty) : bool := match t with MSlice _ => true | _ => false end.
Definition cell_nil (c : cell) : bool := match c with CArg _ t => m_nil t | _ => false end.
Definition cell_slice (c : cell) : bool := match c with CArg _ t => m_slice t | _ => false end.

(** ** Constructors *)
(** types.go:649-700 PointerType, SliceType, ArrayType, MapType, NamedType, ChannelType *)
Definition mPointerType (t : mty) : res mty :=
  if m_nil t then Panic "cannot create a pointer with nil element type" else Ok (MPtr t).
Definition mSliceType (t : mty) : res mty :=
  if m_nil t then Panic "cannot create a slice with nil element type" else Ok (MSlice t).
Definition mArrayType (t : mty) (length : Z) : res mty :=
  if m_nil t || (length <? 0)%Z
  then Panic "cannot create an array with nil element type or negative length" else Ok (MArray t length).
Definition mMapType (k v : mty) : res mty :=
  if m_nil k || m_nil v then Panic "cannot create a map with nil key or element type" else Ok (MMap v k).
Definition mChannelType (t : mty) (dir : Z) : res mty :=
  let dir := if (dir =? 0)%Z then BothDir else dir in
  if m_nil t || negb (Z.ldiff dir BothDir =? 0)%Z
  then Panic "cannot create a channel type with nil element type or invalid direction" else Ok (MChan t dir).
Definition mNamedType (s : Symbol) : MEM mty := do p <- new_obj (ONamed s) ;; sret (MNamed p).
(** types.go:638-646 BasicType; UnsafePointerType is a variable: a named type made beforehand *)
Definition mBasicType (unsafePointer : mty) (k : Kind) : res mty :=
  if Kind_beq k KUnsafePointer then Ok unsafePointer
  else if is_basic k then Ok (MBasic k)
  else Panic ("kind " ++ Kind_String k ++ " is not a basic type")%string.
(** types.go:724-739 FuncTypeFromSig *)
Definition mFuncTypeFromSig (p : nat) : MEM mty :=
  do s <- get_sig p ;;
  do args <- get_cells (ms_args s) ;;
  if existsb cell_nil args then spanic "cannot create a function type with a nil argument type" else
  do results <- get_cells (ms_results s) ;;
  if existsb cell_nil results then spanic "cannot create a function type with a nil result type" else
  if ms_variadic s && match last (map Some args) None with None => true | Some c => negb (cell_slice c) end
  then spanic "cannot create a function type with variadic signature where last arg is not a slice"
  else sret (MFunc p).
(** types.go:704-720 FuncType, FuncTypeVariadic *)
Definition mFuncType (args results : slice) (variadic : bool) : MEM mty :=
  do p <- new_obj (OSig (mkMSig args results variadic)) ;; mFuncTypeFromSig p.
(** types.go:743-754 StructType, InterfaceType *)
Definition mStructType (fs : slice) : MEM mty := do p <- new_obj (OStruct fs) ;; sret (MStruct p).
Definition mInterfaceType (es ms : slice) : MEM mty := do p <- new_obj (OInterface ms es) ;; sret (MInterface p).

(** ** Accessors that give away memory *)
(** types.go:327 Signature: the pointer itself *)
Definition mSignature (t : mty) : option nat := match t with MFunc p => Some p | _ => None end.
(** types.go:348 Fields, 370 Methods, 371 Embeds: append to an empty slice, hence a new array *)
Definition mFields (t : mty) : MEM slice :=
  match t with
  | MStruct p => fun m => match nth_error (objs m) p with
                          | Some (OStruct fs) => (do l <- get_cells fs ;; new_slice l) m
                          | _ => (Panic nil_deref, m)
                          end
  | MNil => spanic nil_deref
  | _ => sret SNil
  end.
Definition mMethods (t : mty) : MEM slice :=
  match t with
  | MInterface p => fun m => match nth_error (objs m) p with
                             | Some (OInterface ms _) => (do l <- get_cells ms ;; new_slice l) m
                             | _ => (Panic nil_deref, m)
                             end
  | MNil => spanic nil_deref
  | _ => sret SNil
  end.
Definition mEmbeds (t : mty) : MEM slice :=
  match t with
  | MInterface p => fun m => match nth_error (objs m) p with
                             | Some (OInterface _ es) => (do l <- get_cells es ;; new_slice l) m
                             | _ => (Panic nil_deref, m)
                             end
  | MNil => spanic nil_deref
  | _ => sret SNil
  end.

(** ** Changing signatures (types.go:131-157).  [extra n] is how much room the run-time system
    leaves when it moves a slice of [n] elements to a new array. *)
Section Append.
Variable extra : nat -> nat.
Definition append_cell (s : slice) (c : cell) : MEM slice :=
  let moved l := do a <- new_array (l ++ [c] ++ repeat (CArg "" MNil) (extra (List.length l))) ;; sret (SArr a (S (List.length l))) in
  match s with
  | SNil => moved []
  | SArr a n =>
      fun m => match nth_error (arrays m) a with
               | None => (Panic nil_deref, m)
               | Some l => if Nat.ltb n (List.length l)
                           then (do _ <- set_cell a n c ;; sret (SArr a (S n))) m
                           else moved (firstn n l) m
               end
  end.
Definition mAddArg (p : nat) (name : string) (t : mty) : MEM unit :=
  do s <- get_sig p ;;
  do args <- append_cell (ms_args s) (CArg name t) ;;
  set_obj p (OSig (mkMSig args (ms_results s) (ms_variadic s))).
Definition mAddResult (p : nat) (name : string) (t : mty) : MEM unit :=
  do s <- get_sig p ;;
  do results <- append_cell (ms_results s) (CArg name t) ;;
  set_obj p (OSig (mkMSig (ms_args s) results (ms_variadic s))).
Definition mSetVariadic (p : nat) (v : bool) : MEM unit :=
  do s <- get_sig p ;;
  set_obj p (OSig (mkMSig (ms_args s) (ms_results s) v)).
End Append.

(** model.go:1572-1599 FuncSpec.ToTypeName; [rcvr]: name and type of the receiver and whether it is
    a pointer; [pkg]: the package of the file, if there is one; [p]: the Signature in the FuncSpec *)
Definition mFuncSpec_ToTypeName (rcvr : option (string * string * bool)) (pkg : option Package) (p : nat) : MEM mty :=
  match rcvr with
  | None => mFuncTypeFromSig p
  | Some (name, type, isPointer) =>
      match pkg with
      | None => spanic "cannot determine TypeName for method"
      | Some pkg =>
          do named <- mNamedType (mkSymbol pkg type) ;;
          do rt <- slift (if isPointer : bool then mPointerType named else Ok named) ;;
          do s <- get_sig p ;;
          do l <- get_cells (ms_args s) ;;
          do args <- new_slice (CArg name rt :: l) ;;
          do q <- new_obj (OSig (mkMSig args (ms_results s) (ms_variadic s))) ;;
          mFuncTypeFromSig q
      end
  end.

(** model.go:1367-1377 InterfaceMethod.ToTypeName; [rt]: the type of the interface, if it has one *)
Definition mInterfaceMethod_ToTypeName (rt : option mty) (p : nat) : MEM mty :=
  match rt with
  | None => spanic "cannot construct TypeName for method"
  | Some rt =>
      do s <- get_sig p ;;
      do l <- get_cells (ms_args s) ;;
      do args <- new_slice (CArg "" rt :: l) ;;
      do r <- get_cells (ms_results s) ;;
      do results <- new_slice r ;;
      do q <- new_obj (OSig (mkMSig args results (ms_variadic s))) ;;
      mFuncTypeFromSig q
  end.
(** assignment of Signature structs, as in model.go:986-990 and 1046-1049 *)
Definition copy_sig (p : nat) : MEM nat := do s <- get_sig p ;; new_obj (OSig s).

(** ** Qualification (imports.go:123-315) *)
Definition QM (A : Type) := ST (Imports * mem) A.
Definition on_mem {A} (x : MEM A) : QM A := fun st => let '(r, m) := x (snd st) in (r, (fst st, m)).
Definition on_imp {A} (x : IM A) : QM A := fun st => let '(r, i) := x (fst st) in (r, (i, snd st)).
(** The loops of 245-315: [f] gives the new cell if it is to be replaced.  [ret] is the copy, once
    there is one. *)
Fixpoint cow (f : cell -> QM (option cell)) (s : slice) (l : list cell) (idx : nat) (ret : option nat) : QM slice :=
  match l with
  | [] => sret match ret with None => s | Some a => SArr a (s_len s) end
  | c :: r =>
      do nc <- f c ;;
      match nc with
      | None => cow f s r (S idx) ret
      | Some c' =>
          do a <- match ret with
                  | Some a => sret a
                  | None => on_mem (do old <- get_cells s ;; new_array old)
                  end ;;
          do _ <- on_mem (set_cell a idx c') ;;
          cow f s r (S idx) (Some a)
      end
  end.
Definition qualify_slice (f : cell -> QM (option cell)) (s : slice) : QM slice :=
  do l <- on_mem (get_cells s) ;; cow f s l 0 None.
(** 245-261 *)
Definition sym_cell (reg : bool) (c : cell) : QM (option cell) :=
  match c with
  | CSym s => do nt <- on_imp (qualify s reg) ;; sret (if symbol_eqb nt s then None else Some (CSym nt))
  | _ => spanic nil_deref
  end.
Section Rec.
Variable rec : mty -> QM mty.
(** 263-279 *)
Definition arg_cell (c : cell) : QM (option cell) :=
  match c with
  | CArg n t => do nt <- rec t ;; sret (if mty_eq nt t then None else Some (CArg n nt))
  | _ => spanic nil_deref
  end.
(** 281-297 *)
Definition field_cell (c : cell) : QM (option cell) :=
  match c with
  | CField n t tag => do nt <- rec t ;; sret (if mty_eq nt t then None else Some (CField n nt tag))
  | _ => spanic nil_deref
  end.
(** 230-237 qualifySignature: [None] if it returns the pointer it is given *)
Definition mqualifySignature (s : msig) : QM (option msig) :=
  do args <- qualify_slice arg_cell (ms_args s) ;;
  do results <- qualify_slice arg_cell (ms_results s) ;;
  sret (if negb (sameSlice args (ms_args s)) || negb (sameSlice results (ms_results s))
        then Some (mkMSig args results (ms_variadic s)) else None).
(** 299-315 *)
Definition method_cell (c : cell) : QM (option cell) :=
  match c with
  | CMethod n s => do ns <- mqualifySignature s ;; sret (option_map (CMethod n) ns)
  | _ => spanic nil_deref
  end.
End Rec.
(** 152-214; fuel, because memory may be cyclic *)
Fixpoint mqualifyType (fuel : nat) (reg : bool) (n : mty) : QM mty :=
  match fuel with
  | O => spanic out_of_fuel
  | S fuel =>
      let rec := mqualifyType fuel reg in
      match n with
      | MNil => spanic nil_deref
      | MBasic _ => sret n
      | MNamed p =>
          do sym <- on_mem (fun m => (match nth_error (objs m) p with Some (ONamed s) => Ok s | _ => Panic nil_deref end, m)) ;;
          do nsym <- on_imp (qualify sym reg) ;;
          if symbol_eqb nsym sym then sret n else on_mem (mNamedType nsym)
      | MPtr e => do ne <- rec e ;; if mty_eq ne e then sret n else slift (mPointerType ne)
      | MSlice e => do ne <- rec e ;; if mty_eq ne e then sret n else slift (mSliceType ne)
      | MArray e len => do ne <- rec e ;; if mty_eq ne e then sret n else slift (mArrayType ne len)
      | MMap e k =>
          do nk <- rec k ;;
          do ne <- rec e ;;
          if mty_eq ne e then if mty_eq nk k then sret n else slift (mMapType nk ne) else slift (mMapType nk ne)
      | MChan e d => do ne <- rec e ;; if mty_eq ne e then sret n else slift (mChannelType ne d)
      | MFunc p =>
          do s <- on_mem (get_sig p) ;;
          do ns <- mqualifySignature rec s ;;
          match ns with
          | None => sret n
          | Some s' => on_mem (do q <- new_obj (OSig s') ;; mFuncTypeFromSig q)
          end
      | MStruct _ =>
          do fs <- on_mem (mFields n) ;;
          do nfs <- qualify_slice (field_cell rec) fs ;;
          if sameSlice nfs fs then sret n else on_mem (mStructType nfs)
      | MInterface _ =>
          do es <- on_mem (mEmbeds n) ;;
          do nes <- qualify_slice (sym_cell reg) es ;;
          do ms <- on_mem (mMethods n) ;;
          do nms <- qualify_slice (method_cell rec) ms ;;
          if sameSlice nes es && sameSlice nms ms then sret n else on_mem (mInterfaceType nes nms)
      end
  end.
(** 217-228 EnsureAllTypesImported and QualifySignature; [p] is the pointer *)
Definition mqualify_pointer (fuel : nat) (reg : bool) (p : nat) : QM nat :=
  do s <- on_mem (get_sig p) ;;
  do ns <- mqualifySignature (mqualifyType fuel reg) s ;;
  match ns with
  | None => sret p
  | Some s' => on_mem (new_obj (OSig s'))
  end.
(** model.go:1411-1418 and 1628-1634: InterfaceMethod.qualify and FuncSpec.qualify put the new
    signature in the place of the old one *)
Definition mqualify_in_place (fuel : nat) (p : nat) : QM bool :=
  do q <- mqualify_pointer fuel true p ;;
  if Nat.eqb q p then sret false
  else do s <- on_mem (get_sig q) ;; do _ <- on_mem (set_obj p (OSig s)) ;; sret true.
(** What is qualified when a file is written: TypeNames held by values, types, fields and
    code (model.go:488, 1129, 1133; code.go:169-198), signatures inside functions and interface
    methods (above), and pointers to signatures in code (code.go:164-167). *)
Inductive part := PType (t : mty) | PSig (p : nat) | PPtr (p : nat).
Definition mqualify_part (fuel : nat) (x : part) : QM part :=
  match x with
  | PType t => do t' <- mqualifyType fuel true t ;; sret (PType t')
  | PSig p => do _ <- mqualify_in_place fuel p ;; sret (PSig p)
  | PPtr p => do q <- mqualify_pointer fuel true p ;; sret (PPtr q)
  end.
Fixpoint mqualify_parts (fuel : nat) (l : list part) : QM (list part) :=
  match l with
  | [] => sret []
  | x :: r => do x' <- mqualify_part fuel x ;; do r' <- mqualify_parts fuel r ;; sret (x' :: r')
  end.
