(** Spec for C114: types and signatures in which there is a nil type. *)
From Verif Require Import Base Types SpecTypes.

(** Reading the type from the left, keys of maps before elements and embedded interfaces before methods,
    the symbols [l] come before the first nil, and what comes before it is as it should be. *)
Inductive nil_after : TypeName -> list Symbol -> Prop :=
| na_nil : nil_after TNil []
| na_ptr e l : nil_after e l -> nil_after (TPtr e) l
| na_slice e l : nil_after e l -> nil_after (TSlice e) l
| na_array e n l : nil_after e l -> nil_after (TArray e n) l
| na_chan e d l : nil_after e l -> nil_after (TChan e d) l
| na_key e k l : nil_after k l -> nil_after (TMap e k) l
| na_elem e k l : wf k = true -> nil_after e l -> nil_after (TMap e k) (symbols_of k ++ l)
| na_func s l : sig_nil_after s l -> nil_after (TFunc s) l
| na_struct pre n t tag post l : forallb (fun f => wf (FldType f)) pre = true -> nil_after t l ->
    nil_after (TStruct (pre ++ mkField n t tag :: post)) (flat_map (fun f => symbols_of (FldType f)) pre ++ l)
| na_iface pre n s post es l : forallb (fun m => wf_sig (MtdSig m)) pre = true -> sig_nil_after s l ->
    nil_after (TInterface (pre ++ mkMethod n s :: post) es) (es ++ flat_map (fun m => sig_symbols (MtdSig m)) pre ++ l)
with sig_nil_after : Signature -> list Symbol -> Prop :=
| sn_arg pre n t post results v l : forallb (fun a => wf (ArgTy a)) pre = true -> nil_after t l ->
    sig_nil_after (mkSig (pre ++ mkArg n t :: post) results v) (flat_map (fun a => symbols_of (ArgTy a)) pre ++ l)
| sn_result args pre n t post v l : forallb (fun a => wf (ArgTy a)) args = true -> forallb (fun a => wf (ArgTy a)) pre = true -> nil_after t l ->
    sig_nil_after (mkSig args (pre ++ mkArg n t :: post) v)
      (flat_map (fun a => symbols_of (ArgTy a)) args ++ flat_map (fun a => symbols_of (ArgTy a)) pre ++ l).

(** As it should be but for nils: lengths are not negative, directions valid, kinds basic, and the last
    argument of a variadic signature is a slice if it is not nil. *)
Definition variadic_or_nil (s : Signature) : bool :=
  negb (IsVariadic s) || match rev (Args s) with [] => false | a :: _ => is_slice (ArgTy a) || is_nil (ArgTy a) end.
Fixpoint wf_but_nil (t : TypeName) : bool :=
  match t with
  | TNil => true
  | TBasic k => is_basic k
  | TNamed _ => true
  | TPtr e | TSlice e => wf_but_nil e
  | TArray e n => (0 <=? n)%Z && wf_but_nil e
  | TMap e k => wf_but_nil e && wf_but_nil k
  | TChan e d => ((1 <=? d) && (d <=? 3))%Z && wf_but_nil e
  | TFunc s => variadic_or_nil s &&
      match s with mkSig args results _ => forallb (fun a => wf_but_nil (ArgTy a)) args && forallb (fun a => wf_but_nil (ArgTy a)) results end
  | TStruct fs => forallb (fun f => wf_but_nil (FldType f)) fs
  | TInterface ms _ => forallb (fun m => match m with mkMethod _ s => variadic_or_nil s &&
      match s with mkSig args results _ => forallb (fun a => wf_but_nil (ArgTy a)) args && forallb (fun a => wf_but_nil (ArgTy a)) results end end) ms
  end.
Definition sig_wf_but_nil (s : Signature) : bool :=
  variadic_or_nil s && forallb (fun a => wf_but_nil (ArgTy a)) (Args s) && forallb (fun a => wf_but_nil (ArgTy a)) (Results s).
