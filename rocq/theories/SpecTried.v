(** Specification: what several files that are written change, and how many of them were opened. *)
From Verif Require Import Base Types SpecTypes Imports SpecImports Conv World SpecGo SpecRender SpecFormat SpecCode SpecAppend SpecOrder SpecQualify SpecShare Write SpecLocal.

(** The files that the open function has opened. *)
Definition opens {H E} (e : event H E) : bool := match e with EvOpen _ (Opened (Some _)) => true | _ => false end.
Definition number_opened {H E} (t : list (event H E)) : nat := List.length (filter opens t).

(** From the one world to the other nothing changes but the imports of the files listed, the references
    in what they consist of, and the data of their templates. *)
Definition changes_in {TD} (w : World TD) (l : list nat) (w1 : World TD) : Prop :=
  (forall g, ~ In g l -> nth_error (files w1) g = nth_error (files w) g) /\
  (forall g F, nth_error (files w) g = Some F -> exists F1, nth_error (files w1) g = Some F1 /\ FFileComment F1 = FFileComment F /\
     FPackageComment F1 = FPackageComment F /\ FCanonical F1 = FCanonical F /\ FPackageName F1 = FPackageName F /\ FName F1 = FName F /\
     FElements F1 = FElements F /\ pkgPath (FImports F1) = pkgPath (FImports F)) /\
  constDecls w1 = constDecls w /\ varDecls w1 = varDecls w /\ typeDecls w1 = typeDecls w /\ blocks w1 = blocks w /\
  map fst (templs w1) = map fst (templs w) /\
  (forall t, (forall g, In g l -> ~ template_of w g t) -> nth_error (templs w1) t = nth_error (templs w) t) /\
  (forall x, (forall g, In g l -> ~ part_of w g x) -> same_entry w w1 x) /\
  (forall a, (forall g, In g l -> ~ uses_args w g a) -> nth_error (argss w1) a = nth_error (argss w) a) /\
  (forall a, option_map (@List.length Arg) (nth_error (argss w1) a) = option_map (@List.length Arg) (nth_error (argss w) a)) /\
  (forall x, (forall s, naming_of w x <> Some (NEmbed s)) -> naming_of w1 x = naming_of w x).
