(** Specification: what two files have in common, and when that does them no harm. *)
From Verif Require Import Base GoPath Types SpecTypes Imports SpecImports SpecGo SpecRender Conv World SpecFile SpecDecl SpecQualify.

Section World.
Context {TD : Type}.
Variable w : World TD.
(** The packages that a declaration, or the arguments of a line of code, mention. *)
Definition item_mentions (x : item) (r : string * string) : Prop :=
  match x with
  | IConst i => exists v, nth_error (consts w) i = Some v /\ In r (tos_packages (VSType v))
  | IVar i => exists v, nth_error (vars w) i = Some v /\ In r (tos_packages (VSType v))
  | IType i => exists T, nth_error (types w) i = Some T /\ In r (sym_requests (symbols_of (TSUnderlying T)))
  | IField i => exists F, nth_error (fields w) i = Some F /\ In r (tos_packages (FSType F))
  | IElem i => (exists c s p, nth_error (ielems w) i = Some (InterfaceEmbed c s p) /\ In r (sym_requests [s])) \/
               (exists c n s p, nth_error (ielems w) i = Some (InterfaceMethod c n s p) /\ In r (sym_requests (sig_symbols s)))
  | IFunc i => exists F, nth_error (funcs w) i = Some F /\ In r (sym_requests (sig_symbols (FNSig F)))
  | IBlock _ => False
  end.
Definition args_mention (a : nat) (r : string * string) : Prop :=
  exists l x y, nth_error (argss w) a = Some l /\ In x l /\ refers_to w x = Some y /\ In r (packages_of y).
(** The packages mentioned by what belongs to both files. *)
Definition shared_mentions (f g : nat) (r : string * string) : Prop :=
  (exists x, part_of w f x /\ part_of w g x /\ item_mentions x r) \/
  (exists a, uses_args w f a /\ uses_args w g a /\ args_mention a r).
(** No go/types package is an argument of a line of code of both files. *)
Definition no_shared_go_package (f g : nat) : Prop :=
  forall a l p, uses_args w f a -> uses_args w g a -> nth_error (argss w) a = Some l -> ~ In (AGoPackage p) l.
End World.
(** Every package mentioned by what belongs to both files is called by its real name in the first
    (whose imports are [i] in the end), or is the first file's own; and it has a usable name. *)
Definition shares_well {TD} (real : string -> string) (w : World TD) (f g : nat) (i : Imports) : Prop :=
  no_shared_go_package w f g /\
  forall path n name, shared_mentions w f g (path, n) -> keeps_name i (mkPackage path name) ->
    right_name real (path, name) /\ usable_name (path, name).

(** The files [l] are written one after the other, which takes the world from [w] to [w1]. *)
Inductive in_order {TD} (env : Env TD) (fuel : nat) : list nat -> World TD -> World TD -> Prop :=
| io_nil w : in_order env fuel [] w w
| io_cons f l s w w1 w2 : source env fuel f w = (Ok s, w1) -> in_order env fuel l w1 w2 -> in_order env fuel (f :: l) w w2.
(** Each file of the list shares well with every later one; the imports are those of [w1]. *)
Definition share_well {TD} (real : string -> string) (w w1 : World TD) (l : list nat) : Prop :=
  ForallOrdPairs (fun f g => forall F1, nth_error (files w1) f = Some F1 -> shares_well real w f g (FImports F1)) l.
