(** Induction principle for [TypeName] and basic facts. *)
From Verif Require Import Base Types SpecTypes.

Section Ind.
Variable P : TypeName -> Prop.
Definition PArgs (l : list ArgType) := Forall (fun a => P (ArgTy a)) l.
Definition PSig (s : Signature) := PArgs (Args s) /\ PArgs (Results s).
Hypothesis Hnil : P TNil.
Hypothesis Hbasic : forall k, P (TBasic k).
Hypothesis Hnamed : forall s, P (TNamed s).
Hypothesis Hptr : forall e, P e -> P (TPtr e).
Hypothesis Hslice : forall e, P e -> P (TSlice e).
Hypothesis Harray : forall e n, P e -> P (TArray e n).
Hypothesis Hmap : forall e k, P e -> P k -> P (TMap e k).
Hypothesis Hchan : forall e d, P e -> P (TChan e d).
Hypothesis Hfunc : forall s, PSig s -> P (TFunc s).
Hypothesis Hstruct : forall fs, Forall (fun f => P (FldType f)) fs -> P (TStruct fs).
Hypothesis Hiface : forall ms es, Forall (fun m => PSig (MtdSig m)) ms -> P (TInterface ms es).

Fixpoint TypeName_ind' (t : TypeName) : P t :=
  let args := fix args (l : list ArgType) : PArgs l :=
    match l with
    | [] => Forall_nil _
    | mkArg n t :: r => Forall_cons (mkArg n t) (TypeName_ind' t : P (ArgTy (mkArg n t))) (args r)
    end in
  match t with
  | TNil => Hnil
  | TBasic k => Hbasic k
  | TNamed s => Hnamed s
  | TPtr e => Hptr e (TypeName_ind' e)
  | TSlice e => Hslice e (TypeName_ind' e)
  | TArray e n => Harray e n (TypeName_ind' e)
  | TMap e k => Hmap e k (TypeName_ind' e) (TypeName_ind' k)
  | TChan e d => Hchan e d (TypeName_ind' e)
  | TFunc (mkSig a r v) => Hfunc (mkSig a r v) (conj (args a) (args r))
  | TStruct fs =>
      Hstruct fs ((fix go (l : list FieldType) : Forall (fun f => P (FldType f)) l :=
        match l with
        | [] => Forall_nil _
        | mkField n t tag :: r =>
            Forall_cons (mkField n t tag) (TypeName_ind' t : P (FldType (mkField n t tag))) (go r)
        end) fs)
  | TInterface ms es =>
      Hiface ms es ((fix go (l : list MethodType) : Forall (fun m => PSig (MtdSig m)) l :=
        match l with
        | [] => Forall_nil _
        | mkMethod n (mkSig a r v) :: rest =>
            Forall_cons (mkMethod n (mkSig a r v))
              (conj (args a) (args r) : PSig (MtdSig (mkMethod n (mkSig a r v)))) (go rest)
        end) ms)
  end.
End Ind.

Lemma package_eqb_eq a b : package_eqb a b = true <-> a = b.
Proof.
  destruct a, b; unfold package_eqb; simpl; rewrite andb_true_iff, !String.eqb_eq.
  split; [intros [-> ->]; reflexivity | intros [= -> ->]; auto].
Qed.
Lemma symbol_eqb_eq a b : symbol_eqb a b = true <-> a = b.
Proof.
  destruct a, b; unfold symbol_eqb; simpl; rewrite andb_true_iff, package_eqb_eq, String.eqb_eq.
  split; [intros [-> ->]; reflexivity | intros [= -> ->]; auto].
Qed.
Lemma symbol_eqb_neq a b : symbol_eqb a b = false <-> a <> b.
Proof. rewrite <- symbol_eqb_eq. destruct (symbol_eqb a b); intuition congruence. Qed.
Lemma symbol_eqb_refl a : symbol_eqb a a = true.
Proof. apply symbol_eqb_eq; reflexivity. Qed.
