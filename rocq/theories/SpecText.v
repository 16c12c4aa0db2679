(** Specification: how Go reads the text of a type whose names are all usable.  The text of an
    interface has nothing between its last embed and its first method, and the text of a channel
    has no parentheses. *)
From Verif Require Import Base Types SpecTypes SpecImports SpecGo SpecRender.

(** A type and all its components. *)
Definition sig_parts {T A} (g : T -> list A) (s : Signature_ T) : list A :=
  match s with mkSig a r _ => flat_map (fun x => match x with mkArg _ t => g t end) a ++
                              flat_map (fun x => match x with mkArg _ t => g t end) r end.
Fixpoint parts (t : TypeName) : list TypeName :=
  t :: match t with
       | TNil | TBasic _ | TNamed _ => []
       | TPtr e | TSlice e | TArray e _ | TChan e _ => parts e
       | TMap e k => parts e ++ parts k
       | TFunc s => sig_parts parts s
       | TStruct fs => flat_map (fun f => match f with mkField _ t _ => parts t end) fs
       | TInterface ms _ => flat_map (fun m => match m with mkMethod _ s => sig_parts parts s end) ms
       end.

(** The names written by the type itself. *)
Definition own_names (t : TypeName) : bool :=
  match t with
  | TNamed s => sym_ok s
  | TFunc (mkSig a r _) => names_ok a && names_ok r
  | TStruct fs => forallb (fun f => if String.eqb (FldName f) "" then embeddable (FldType f) else ident (FldName f)) fs
  | TInterface ms es =>
      forallb sym_ok es &&
      forallb (fun m => match m with mkMethod n (mkSig a r _) => ident n && (names_ok a && names_ok r) end) ms
  | _ => true
  end.
Definition names_fine (t : TypeName) : bool := forallb own_names (parts t).

(** A bidirectional channel of receive-only channels. *)
Definition both_of_recv (t : TypeName) : bool :=
  match t with TChan e d => (d =? BothDir)%Z && recv_chan e | _ => false end.
(** An interface with embeds and methods. *)
Definition both_kinds (t : TypeName) : bool :=
  match t with TInterface (_ :: _) (_ :: _) => true | _ => false end.
(** The last embed and the first method make one identifier. *)
Definition one_word (t : TypeName) : bool :=
  match t with
  | TInterface (mkMethod n _ :: _) es =>
      match rev es with
      | [] => true
      | e :: _ => match qualifier e with Some _ => false | None => negb (is_keyword (SymName e ++ n)) end
      end
  | _ => true
  end.
Definition readable (t : TypeName) : bool := forallb one_word (parts t).

(** The type that is read instead.  An arrow after chan belongs to that chan: [both e] is what
    chan followed by the text of [e] is. *)
Fixpoint both (e : TypeName) : TypeName :=
  match e with
  | TChan x d => if (d =? RecvDir)%Z then TChan (both x) SendDir else TChan e BothDir
  | _ => TChan e BothDir
  end.
Definition glue (ms : list MethodType) (es : list Symbol) : TypeName :=
  match ms, rev es with
  | mkMethod n s :: ms', e :: es' => TInterface (mkMethod (SymName e ++ n) s :: ms') (rev es')
  | _, _ => TInterface ms es
  end.
Fixpoint read_as (t : TypeName) : TypeName :=
  match t with
  | TNil => TNil
  | TBasic k => TBasic k
  | TNamed s => TNamed s
  | TPtr e => TPtr (read_as e)
  | TSlice e => TSlice (read_as e)
  | TArray e n => TArray (read_as e) n
  | TMap e k => TMap (read_as e) (read_as k)
  | TChan e d => if (d =? BothDir)%Z then both (read_as e) else TChan (read_as e) d
  | TFunc s => TFunc (map_sig read_as s)
  | TStruct fs => TStruct (map (fun f => match f with mkField n t tag => mkField n (read_as t) tag end) fs)
  | TInterface ms es => glue (map (fun m => match m with mkMethod n s => mkMethod n (map_sig read_as s) end) ms) es
  end.
