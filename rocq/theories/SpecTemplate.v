(** Specification of qualified template data. *)
From Coq Require Import Permutation.
From Verif Require Import Base GoPath Types SpecTypes Imports SpecImports Conv World Template.

(** [c] tells whether [new] differs from [old]. *)
Definition tells {A} (c : bool) (old new : A) : Prop := if c then new <> old else new = old.

(** The same data with the entries of its maps in other orders. *)
Inductive shuffled : val -> val -> Prop :=
| sh_same v : shuffled v v
| sh_iface t d d' : shuffled d d' -> shuffled (VIface t (Some d)) (VIface t (Some d'))
| sh_struct t fs fs' : Forall2 (fun f g => fst g = fst f /\ shuffled (snd f) (snd g)) fs fs' ->
    shuffled (VStruct t fs) (VStruct t fs')
| sh_ptr e x x' : shuffled x x' -> shuffled (VPtr e (Some x)) (VPtr e (Some x'))
| sh_slice t l l' : Forall2 shuffled l l' -> shuffled (VSlice t l) (VSlice t l')
| sh_array t l l' : Forall2 shuffled l l' -> shuffled (VArray t l) (VArray t l')
| sh_map t es es1 es' : Permutation es es1 ->
    Forall2 (fun e f => shuffled (fst e) (fst f) /\ shuffled (snd e) (snd f)) es1 es' ->
    shuffled (VMap t es) (VMap t es').

(** ** Map keys *)
(** Types that are values without pointers. *)
Fixpoint pointer_free (t : TypeName) : Prop :=
  match t with
  | TNil | TBasic _ => True
  | TPtr e | TSlice e | TArray e _ | TChan e _ => pointer_free e
  | TMap e k => pointer_free e /\ pointer_free k
  | TNamed _ | TFunc _ | TStruct _ | TInterface _ _ => False
  end.
(** Keys of one map that Go holds to be equal, if one of them is new (a new pointer equals no other).
    https://go.dev/ref/spec#Comparison_operators *)
Inductive go_equal : val -> val -> Prop :=
| ge_nil_iface t u : go_equal (VIface t None) (VIface u None)
| ge_iface t u x y : go_equal x y -> go_equal (VIface t (Some x)) (VIface u (Some y))
| ge_struct t l m : Forall2 (fun a b => go_equal (snd a) (snd b)) l m -> go_equal (VStruct t l) (VStruct t m)
| ge_array t l m : Forall2 go_equal l m -> go_equal (VArray t l) (VArray t m)
| ge_nil e : go_equal (VPtr e None) (VPtr e None)
| ge_package p : go_equal (VPackage p) (VPackage p)
| ge_symbol s : go_equal (VSymbol s) (VSymbol s)
| ge_method m : go_equal (VMethodRef m) (VMethodRef m)
| ge_type t : pointer_free t -> go_equal (VTypeName t) (VTypeName t)
| ge_other t n : go_equal (VOther t n) (VOther t n).
(** A map after an entry was set. *)
Definition with_entry (k v : val) (m m' : list (val * val)) : Prop :=
  (Forall (fun e => ~ go_equal k (fst e)) m /\ m' = m ++ [(k, v)]) \/
  exists m1 k' v' m2, m = m1 ++ (k', v') :: m2 /\ Forall (fun e => ~ go_equal k (fst e)) m1 /\ go_equal k k' /\
    m' = m1 ++ (k', v) :: m2.

(** ** Names *)
(** The name a file writes before a dot for the package at [path] (empty for its own). *)
Definition name_in (i : Imports) (path : string) : string :=
  match fst (PrefixForPackage path i) with
  | Ok p => substring 0 (String.length p - 1) p
  | Panic _ => ""
  end.
(** Data is handed over in an interface{}. *)
Definition any : string := "interface {}".
Definition data (d : val) : val := VIface any (Some d).
(** The history of registrations. *)
Definition registrations (l : list (string * string)) : list call := map (fun r => CRegisterImport (fst r) (snd r)) l.
(** The file writes [n] for the package at [path]. *)
Definition written_as (i : Imports) (path n : string) : Prop :=
  fst (PrefixForPackage path i) = Ok (if String.eqb n "" then "" else n ++ ".")%string.

Section Spec.
Variable implements : gty -> string -> bool.
Variable unsafe : bool.
Variable parent_of : spec -> res (option Package).

Section Naming.
(** [nm]: path to name *)
Variable nm : string -> string.
Definition pkg_as (p : Package) : Package := mkPackage (ImportPath p) (nm (ImportPath p)).
Definition sym_as (s : Symbol) : Symbol := if has_package s then mkSymbol (pkg_as (SymPackage s)) (SymName s) else s.
Definition type_as : TypeName -> TypeName := map_symbols sym_as.
Definition sig_as : Signature -> Signature := map_sig type_as.
End Naming.

(** ** What the values of go/types and reflect stand for *)
Inductive reference := RefType (n : TypeName) | RefSym (s : Symbol) | RefMeth (m : MethodReference) | RefPkg (p : Package).
Definition denotes (d : val) : option (res reference) :=
  match d with
  | VReflectType r => Some (rbind (TypeNameForReflectType r) (fun n => Ok (RefType n)))
  | VGoType g => Some (rbind (TypeNameForGoType g) (fun n => Ok (RefType n)))
  | VGoObject o => Some (rbind (SymbolForGoObject o) (fun sm => Ok (match sm with SomSymbol s => RefSym s | SomMethod m => RefMeth m end)))
  | VGoPackage p => Some (rbind (PackageForGoType p) (fun p => Ok (RefPkg p)))
  | _ => None
  end.
(** The gopoet value for a reference, and with its package renamed. *)
Definition shown (r : reference) : val :=
  match r with
  | RefType n => VTypeName n
  | RefSym s => VSymbol s
  | RefMeth m => VPtr (GName "gopoet.MethodReference") (Some (VMethodRef m))
  | RefPkg p => VPackage p
  end.
Definition ref_as (nm : string -> string) (r : reference) : reference :=
  match r with
  | RefType n => RefType (type_as nm n)
  | RefSym s => RefSym (sym_as nm s)
  | RefMeth m => RefMeth (mkMethodRef (sym_as nm (MRType m)) (MRMethod m))
  | RefPkg p => RefPkg (pkg_as nm p)
  end.
Definition ref_requests (r : reference) : list (string * string) :=
  match r with
  | RefType n => sym_requests (symbols_of n)
  | RefSym s => sym_requests [s]
  | RefMeth m => sym_requests [MRType m]
  | RefPkg p => [(ImportPath p, PkgName p)]
  end.
Definition ref_wf (r : reference) : Prop := match r with RefType n => wf n = true | _ => True end.
Definition is_iface (v : val) : bool := match v with VIface _ _ => true | _ => false end.
Definition held (v : val) : val := match v with VIface _ (Some d) => d | _ => v end.
(** held by an interface as a gopoet TypeName *)
Definition as_type (d : val) : option TypeName := match d with VTypeName n => Some n | _ => None end.

(** ** The registrations the data asks for, in the order of the walk *)
Fixpoint data_requests (v : val) : list (string * string) :=
  match v with
  | VIface _ None => []
  | VIface _ (Some d) =>
      match as_type d with
      | Some n => sym_requests (symbols_of n)
      | None => match denotes d with
                | Some (Ok r) => ref_requests r
                | Some (Panic _) => []
                | None => data_requests d
                end
      end
  | VStruct _ fs => flat_map (fun f => if fst f || unsafe then data_requests (snd f) else []) fs
  | VPtr _ (Some x) => data_requests x
  | VPtr _ None => []
  | VSlice _ l | VArray _ l => flat_map data_requests l
  | VMap _ es => flat_map (fun e => data_requests (fst e) ++ data_requests (snd e)) es
  | VPackage p => [(ImportPath p, PkgName p)]
  | VSymbol s => sym_requests [s]
  | VMethodRef m => sym_requests [MRType m]
  | VSignature s => sym_requests (sig_symbols s)
  | VSpec s renamed => match spec_parent parent_of s renamed with Ok (Some p) => [(ImportPath p, PkgName p)] | _ => [] end
  | VElem (InterfaceEmbed _ s _) => sym_requests [s]
  | VElem (InterfaceMethod _ _ s _) => sym_requests (sig_symbols s)
  | _ => []
  end.

(** ** Data Go's type system allows *)
Fixpoint typed (v : val) : Prop :=
  match v with
  | VIface _ None => True
  | VIface t (Some d) =>
      implements (typeof d) t = true /\ is_iface d = false /\
      match as_type d with
      | Some n => wf n = true
      | None => match denotes d with
                | Some (Ok r) => ref_wf r
                | Some (Panic _) => True
                | None => typed d
                end
      end
  | VStruct _ fs => fold_right (fun f P => typed (snd f) /\ P) True fs
  | VPtr e (Some x) => typeof x = e /\ typed x
  | VPtr _ None => True
  | VSlice _ l | VArray _ l => fold_right (fun x P => typed x /\ P) True l
  | VMap _ es =>
      fold_right (fun e P => typed (fst e) /\ typed (snd e) /\ P) True es /\
      ForallOrdPairs (fun a b => ~ go_equal (fst b) (fst a)) es
  | VSignature s => wf_sig s = true
  | VElem (InterfaceMethod _ _ s _) => wf_sig s = true
  | VTypeName _ | VReflectType _ | VGoType _ | VGoObject _ | VGoPackage _ => False
  | _ => True
  end.

(** ** Renamed data *)
(** [renamed nm c v v']: [v'] is [v] with every reference renamed by [nm]; [c] tells whether
    something was renamed. *)
Section Renamed.
Variable nm : string -> string.
Inductive renamed : bool -> val -> val -> Prop :=
| rn_nil t : renamed false (VIface t None) (VIface t None)
| rn_type c t n : tells c n (type_as nm n) ->
    renamed c (VIface t (Some (VTypeName n))) (VIface t (Some (VTypeName (type_as nm n))))
(* what go/types and reflect values stand for replaces them only if it was renamed and fits *)
| rn_replaced t d r : denotes d = Some (Ok r) -> ref_as nm r <> r -> implements (typeof (shown (ref_as nm r))) t = true ->
    renamed true (VIface t (Some d)) (VIface t (Some (shown (ref_as nm r))))
| rn_kept t d r : denotes d = Some (Ok r) -> ref_as nm r = r \/ implements (typeof (shown (ref_as nm r))) t = false ->
    renamed false (VIface t (Some d)) (VIface t (Some d))
| rn_held c t d d' : as_type d = None -> denotes d = None -> renamed c d d' ->
    renamed c (VIface t (Some d)) (VIface t (Some d'))
| rn_struct c t fs fs' : renamed_fields c fs fs' -> renamed c (VStruct t fs) (VStruct t fs')
| rn_ptr_nil e : renamed false (VPtr e None) (VPtr e None)
| rn_ptr_same e x : renamed false x x -> renamed false (VPtr e (Some x)) (VPtr e (Some x))
| rn_ptr e x x' : renamed true x x' ->
    renamed true (VPtr e (Some x)) (VPtr (typeof (held x')) (Some (held x')))
| rn_slice c t l l' : renamed_all c l l' -> renamed c (VSlice t l) (VSlice t l')
| rn_array c t l l' : renamed_all c l l' -> renamed c (VArray t l) (VArray t l')
| rn_map_same t es : renamed_entries false es es -> renamed false (VMap t es) (VMap t es)
| rn_map t es es' : renamed_entries true es es' ->
    renamed true (VMap t es) (VMap t (fold_left (fun m e => set_entry (fst e) (snd e) m) es' []))
| rn_package c p : tells c p (pkg_as nm p) -> renamed c (VPackage p) (VPackage (pkg_as nm p))
| rn_symbol c s : tells c s (sym_as nm s) -> renamed c (VSymbol s) (VSymbol (sym_as nm s))
| rn_method c m : tells c (MRType m) (sym_as nm (MRType m)) ->
    renamed c (VMethodRef m) (VMethodRef (mkMethodRef (sym_as nm (MRType m)) (MRMethod m)))
| rn_signature c s : tells c s (sig_as nm s) -> renamed c (VSignature s) (VSignature (sig_as nm s))
| rn_spec_none s r : spec_parent parent_of s r = Ok None -> renamed false (VSpec s r) (VSpec s r)
| rn_spec_same s r p : spec_parent parent_of s r = Ok (Some p) -> nm (ImportPath p) = PkgName p ->
    renamed false (VSpec s r) (VSpec s r)
| rn_spec s r p : spec_parent parent_of s r = Ok (Some p) -> nm (ImportPath p) <> PkgName p ->
    renamed true (VSpec s r) (VSpec s (Some (nm (ImportPath p))))
| rn_embed c cm s p : tells c s (sym_as nm s) ->
    renamed c (VElem (InterfaceEmbed cm s p)) (VElem (InterfaceEmbed cm (sym_as nm s) p))
| rn_imethod c cm n s p : tells c s (sig_as nm s) ->
    renamed c (VElem (InterfaceMethod cm n s p)) (VElem (InterfaceMethod cm n (sig_as nm s) p))
| rn_imports i : renamed false (VImports i) (VImports i)
| rn_other t n : renamed false (VOther t n) (VOther t n)
with renamed_all : bool -> list val -> list val -> Prop :=
| ra_nil : renamed_all false [] []
| ra_cons c x x' cs l l' : renamed c x x' -> typeof x' = typeof x -> renamed_all cs l l' ->
    renamed_all (c || cs) (x :: l) (x' :: l')
with renamed_fields : bool -> list (bool * val) -> list (bool * val) -> Prop :=
| rf_nil : renamed_fields false [] []
| rf_skip x cs l l' : unsafe = false -> renamed_fields cs l l' ->
    renamed_fields cs ((false, x) :: l) ((false, x) :: l')
| rf_cons exported c x x' cs l l' : exported = true \/ unsafe = true -> renamed c x x' -> typeof x' = typeof x ->
    renamed_fields cs l l' -> renamed_fields (c || cs) ((exported, x) :: l) ((exported, x') :: l')
with renamed_entries : bool -> list (val * val) -> list (val * val) -> Prop :=
| re_nil : renamed_entries false [] []
| re_cons ck k k' cx x x' cs l l' : renamed ck k k' -> typeof k' = typeof k -> renamed cx x x' -> typeof x' = typeof x ->
    renamed_entries cs l l' -> renamed_entries (ck || cx || cs) ((k, x) :: l) ((k', x') :: l').
End Renamed.

(** ** Iteration order *)
(** The renamed keys of every map are different keys. *)
Fixpoint keys_apart (nm : string -> string) (v : val) : Prop :=
  match v with
  | VIface _ (Some d) => keys_apart nm d
  | VStruct _ fs => fold_right (fun f P => keys_apart nm (snd f) /\ P) True fs
  | VPtr _ (Some x) => keys_apart nm x
  | VSlice _ l | VArray _ l => fold_right (fun x P => keys_apart nm x /\ P) True l
  | VMap _ es =>
      (forall c es', renamed_entries nm c es es' -> ForallOrdPairs (fun a b => ~ go_equal (fst b) (fst a)) es') /\
      fold_right (fun e P => keys_apart nm (fst e) /\ keys_apart nm (snd e) /\ P) True es
  | _ => True
  end.

(** ** Data that can be walked and rewritten with reflect *)
(** Unexported fields are reachable (with unsafe) in addressable structs only; conversions
    of go/types and reflect values, and lookups of the parents of specs, do not panic. *)
Fixpoint readable (addr : bool) (v : val) : Prop :=
  match v with
  | VIface _ (Some d) =>
      match denotes d with
      | Some r => exists x, r = Ok x
      | None => readable false d
      end
  | VStruct _ fs =>
      fold_right (fun f P => (fst f = false -> unsafe = true -> addr = true) /\
                             (fst f = true \/ unsafe = true -> readable addr (snd f)) /\ P) True fs
  | VPtr _ (Some x) => readable true x
  | VSlice _ l => fold_right (fun x P => readable true x /\ P) True l
  | VArray _ l => fold_right (fun x P => readable addr x /\ P) True l
  | VMap _ es => fold_right (fun e P => readable false (fst e) /\ readable false (snd e) /\ P) True es
  | VSpec s r => exists p, spec_parent parent_of s r = Ok p
  | _ => True
  end.
(** References occur only in structs all of whose fields are exported, in addressable arrays,
    and not behind pointers to interfaces. *)
Fixpoint storable (addr : bool) (v : val) : Prop :=
  match v with
  | VIface _ (Some d) =>
      match denotes d with
      | Some r => True
      | None => storable false d
      end
  | VStruct _ fs =>
      (data_requests v = [] \/ Forall (fun f => fst f = true) fs) /\
      fold_right (fun f P => storable addr (snd f) /\ P) True fs
  | VPtr _ (Some x) => (data_requests x = [] \/ is_iface x = false) /\ storable true x
  | VSlice _ l => fold_right (fun x P => storable true x /\ P) True l
  | VArray _ l =>
      (data_requests v = [] \/ addr = true) /\
      fold_right (fun x P => storable addr x /\ P) True l
  | VMap _ es => fold_right (fun e P => storable false (fst e) /\ storable false (snd e) /\ P) True es
  | _ => True
  end.
(** In the fields that are read, no spec of a package with an import path is renamed by [nm], and
    there are no pointers to interfaces.  (The parent of a renamed spec is a file without import
    path.) *)
Fixpoint simple (nm : string -> string) (v : val) : Prop :=
  match v with
  | VIface _ (Some d) => simple nm d
  | VStruct _ fs => fold_right (fun f P => (fst f = true \/ unsafe = true -> simple nm (snd f)) /\ P) True fs
  | VPtr _ (Some x) => is_iface x = false /\ simple nm x
  | VSlice _ l | VArray _ l => fold_right (fun x P => simple nm x /\ P) True l
  | VMap _ es => fold_right (fun e P => simple nm (fst e) /\ simple nm (snd e) /\ P) True es
  | VSpec s r => forall p, spec_parent parent_of s r = Ok (Some p) -> nm (ImportPath p) = PkgName p \/ ImportPath p = ""
  | _ => True
  end.
(** There are no pointers to interfaces. *)
Fixpoint plain_pointers (v : val) : Prop :=
  match v with
  | VIface _ (Some d) => plain_pointers d
  | VStruct _ fs => fold_right (fun f P => plain_pointers (snd f) /\ P) True fs
  | VPtr _ (Some x) => is_iface x = false /\ plain_pointers x
  | VSlice _ l | VArray _ l => fold_right (fun x P => plain_pointers x /\ P) True l
  | VMap _ es => fold_right (fun e P => plain_pointers (fst e) /\ plain_pointers (snd e) /\ P) True es
  | _ => True
  end.

(** ** Exactly the data that is walked without a panic *)
Section Walkable.
Variable nm : string -> string.
(** Something in the data gets another name, and a place for it. *)
Fixpoint moved (v : val) : Prop :=
  match v with
  | VIface t (Some d) =>
      match as_type d with
      | Some n => type_as nm n <> n
      | None => match denotes d with
                | Some (Ok r) => ref_as nm r <> r /\ implements (typeof (shown (ref_as nm r))) t = true
                | Some (Panic _) => False
                | None => moved d
                end
      end
  | VStruct _ fs => fold_right (fun f P => (fst f = true \/ unsafe = true) /\ moved (snd f) \/ P) False fs
  | VPtr _ (Some x) => moved x
  | VSlice _ l | VArray _ l => fold_right (fun x P => moved x \/ P) False l
  | VMap _ es => fold_right (fun e P => moved (fst e) \/ moved (snd e) \/ P) False es
  | VPackage p => nm (ImportPath p) <> PkgName p
  | VSymbol s => sym_as nm s <> s
  | VMethodRef m => sym_as nm (MRType m) <> MRType m
  | VSignature s => sig_as nm s <> s
  | VSpec s r => exists p, spec_parent parent_of s r = Ok (Some p) /\ nm (ImportPath p) <> PkgName p
  | VElem (InterfaceEmbed _ s _) => sym_as nm s <> s
  | VElem (InterfaceMethod _ _ s _) => sig_as nm s <> s
  | _ => False
  end.
(** The type of the new value: an interface gives what it holds, a pointer to an interface a
    pointer to what the interface holds. *)
Fixpoint moved_type (v : val) : gty :=
  match v with
  | VIface _ (Some d) =>
      match denotes d with
      | Some (Ok r) => typeof (shown (ref_as nm r))
      | _ => moved_type d
      end
  | VPtr _ (Some x) => GPtr (moved_type x)
  | _ => typeof v
  end.
(** The new value can be put where [x] was. *)
Definition replaceable (x : val) : Prop := moved x -> assignable implements (moved_type x) (typeof x) = true.
(** Unexported fields are read with unsafe in addressable structs only, and structs that have
    some cannot be changed; arrays are changed in addressable places only; new values must be
    assignable; conversions and parents must be there. *)
Fixpoint walkable (addr : bool) (v : val) : Prop :=
  match v with
  | VIface _ (Some d) =>
      match as_type d with
      | Some _ => True
      | None => match denotes d with
                | Some r => exists x, r = Ok x
                | None => walkable false d
                end
      end
  | VStruct _ fs =>
      fold_right (fun f P => (fst f = false -> unsafe = true -> addr = true) /\
                             (fst f = true \/ unsafe = true -> walkable addr (snd f) /\ replaceable (snd f)) /\ P) True fs /\
      (moved v -> Forall (fun f => fst f = true) fs)
  | VPtr _ (Some x) => walkable true x
  | VSlice _ l => fold_right (fun x P => (walkable true x /\ replaceable x) /\ P) True l
  | VArray _ l =>
      fold_right (fun x P => (walkable addr x /\ replaceable x) /\ P) True l /\ (moved v -> addr = true)
  | VMap _ es =>
      fold_right (fun e P => (walkable false (fst e) /\ replaceable (fst e)) /\
                             (walkable false (snd e) /\ replaceable (snd e)) /\ P) True es
  | VSpec s r => exists p, spec_parent parent_of s r = Ok p
  | _ => True
  end.
End Walkable.
End Spec.
