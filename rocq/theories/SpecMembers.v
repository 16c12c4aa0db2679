(** Specification: the members of struct and interface type specs, the type they make up, and the
    type spec that each field and interface element belongs to. *)
From Verif Require Import Base GoPath Types SpecTypes Imports SpecImports Conv World SpecGo SpecRender SpecCalls SpecWorld SpecQualify SpecProgram.

Section Members.
Context {TD : Type}.
Variable env : Env TD.
Notation World := (World TD).

(** ** The type that the members make up *)
Fixpoint each {A B} (g : A -> option B) (l : list A) : option (list B) :=
  match l with
  | [] => Some []
  | a :: r => obind (g a) (fun b => obind (each g r) (fun s => Some (b :: s)))
  end.
(** The type a field is given: a type, the underlying type of an unnamed spec, or a declared type. *)
Definition member_type (w : World) (t : TypeNameOrSpec) : option TypeName :=
  match t with
  | NoType => Some TNil
  | IsName t => Some t
  | IsSpec id =>
      obind (nth_error (types w) id) (fun T =>
      if String.eqb (TSName T) "" then Some (TSUnderlying T) else option_map TNamed (named_type w T))
  end.
Definition described (w : World) (T : TypeSpec) : option TypeName :=
  match TSUnderlying T with
  | TStruct _ =>
      option_map TStruct (each (fun id => obind (nth_error (World.fields w) id) (fun x =>
        option_map (fun t => mkField (FSName x) t (FSTag x)) (member_type w (FSType x)))) (TSStruct T))
  | TInterface _ _ =>
      option_map (fun l => TInterface (flat_map (fun e => match e with InterfaceMethod _ n s _ => [mkMethod n s] | _ => [] end) l)
                                      (flat_map (fun e => match e with InterfaceEmbed _ s _ => [s] | _ => [] end) l))
        (each (nth_error (ielems w)) (TSInterface T))
  | u => Some u
  end.
(** The underlying type that the spec reports is what its members make up. *)
Definition agrees (w : World) (id : nat) : Prop :=
  exists T, nth_error (types w) id = Some T /\ described w T = Some (TSUnderlying T).
(** Types are the same up to the names that files give to packages. *)
Definition by_path (s : Symbol) : Symbol := mkSymbol (mkPackage (sym_path s) "") (SymName s).
Fixpoint paths_of (t : TypeName) : TypeName :=
  match t with
  | TNil => TNil
  | TBasic k => TBasic k
  | TNamed s => TNamed (by_path s)
  | TPtr e => TPtr (paths_of e)
  | TSlice e => TSlice (paths_of e)
  | TArray e n => TArray (paths_of e) n
  | TMap e k => TMap (paths_of e) (paths_of k)
  | TChan e d => TChan (paths_of e) (if (d =? 0)%Z then 3%Z else d)    (* no direction is both *)
  | TFunc s => TFunc (map_sig paths_of s)
  | TStruct fs => TStruct (map (fun f => match f with mkField n t tag => mkField n (paths_of t) tag end) fs)
  | TInterface ms es =>
      TInterface (map (fun m => match m with mkMethod n s => mkMethod n (map_sig paths_of s) end) ms) (map by_path es)
  end.
Definition agrees_by_path (w : World) (id : nat) : Prop :=
  exists T t, nth_error (types w) id = Some T /\ described w T = Some t /\ paths_of t = paths_of (TSUnderlying T).
(** None of its fields is given a named type spec. *)
Definition no_named_fields (w : World) (id : nat) : Prop :=
  forall T i x ts S, nth_error (types w) id = Some T -> In i (TSStruct T) -> nth_error (World.fields w) i = Some x ->
    FSType x = IsSpec ts -> nth_error (types w) ts = Some S -> TSName S = ""%string.
(** The call sets the tag of one of its fields or changes the signature of one of its methods. *)
Definition sets_member (w : World) (id : nat) (c : api_call TD) : Prop :=
  exists T, nth_error (types w) id = Some T /\
  match c with
  | PSet (CallField i (FSetTag _)) => In i (TSStruct T)
  | PSet (CallElem i (SAddArg _ _)) | PSet (CallElem i (SAddResult _ _)) | PSet (CallElem i (SSetVariadic _)) => In i (TSInterface T)
  | _ => False
  end.
Definition writes_none (p : list (api_call TD)) : Prop := forall c, In c p -> match c with PWrite _ _ => False | _ => True end.

(** ** The type spec of a field or interface element *)
Inductive member := MField (id : nat) | MElem (id : nat).
Definition elem_parent (e : InterfaceElement) : option nat :=
  match e with InterfaceEmbed _ _ p => p | InterfaceMethod _ _ _ p => p end.
Definition exists_in (w : World) (k : member) : Prop :=
  match k with MField i => i < List.length (World.fields w) | MElem i => i < List.length (ielems w) end.
Definition spec_of (w : World) (k : member) : option nat :=
  match k with
  | MField i => obind (nth_error (World.fields w) i) FSParent
  | MElem i => obind (nth_error (ielems w) i) elem_parent
  end.
(** The call makes a type spec of the member. *)
Definition takes (c : api_call TD) (k : member) : bool :=
  match c, k with
  | PNewStruct _ l, MField i | PNewInterface _ l, MElem i => existsb (Nat.eqb i) l
  | _, _ => false
  end.
(** The type spec that was made of the member last; a new spec comes after all others. *)
Fixpoint last_spec (k : member) (p : list (api_call TD)) (w : World) (t : option nat) : option nat :=
  match p with
  | [] => t
  | c :: r => last_spec k r (snd (do_call env c w)) (if takes c k then Some (List.length (types w)) else t)
  end.
(** No making of a struct or interface type panicked. *)
Fixpoint makings_return (p : list (api_call TD)) (w : World) : Prop :=
  match p with
  | [] => True
  | c :: r =>
      match c with PNewStruct _ _ | PNewInterface _ _ => fst (do_call env c w) = Ok tt | _ => True end /\
      makings_return r (snd (do_call env c w))
  end.
End Members.
