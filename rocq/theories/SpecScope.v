(** Specification: Go's rules about the names of a source file, as far as they concern imports.
    https://go.dev/ref/spec#Declarations_and_scope (universe, package, file and function blocks)
    and https://go.dev/ref/spec#Import_declarations. *)
From Verif Require Import Base GoPath Types SpecTypes Imports SpecImports World SpecGo SpecRender SpecFile SpecQualify.

(** The names of types in a type, with their qualifiers. *)
Fixpoint names_in (g : gotype) : list (option string * string) :=
  match g with
  | GName q n => [(q, n)]
  | GPtr e | GSlice e | GArray _ e | GChan _ e => names_in e
  | GMap k e => names_in k ++ names_in e
  | GFunc ps rs => flat_map (fun '(_, _, t) => names_in t) ps ++ flat_map (fun '(_, _, t) => names_in t) rs
  | GStruct fs => flat_map (fun '(_, t, _) => names_in t) fs
  | GInterface es =>
      flat_map (fun e => match e with
                         | inl (_, ps, rs) => flat_map (fun '(_, _, t) => names_in t) ps ++ flat_map (fun '(_, _, t) => names_in t) rs
                         | inr (q, n) => [(q, n)]
                         end) es
  end.
Definition params_names (l : list gparam) : list (option string * string) := flat_map (fun '(_, _, t) => names_in t) l.
Definition value_names (v : gvalue) : list (option string * string) :=
  let '(_, t, _) := v in match t with Some t => names_in t | None => [] end.
Definition decl_names (d : gdecl) : list (option string * string) :=
  match d with
  | DConst _ l | DVar _ l => flat_map value_names l
  | DType _ l => flat_map (fun '(_, _, t) => names_in t) l
  | DFunc rc _ (ps, rs) _ =>
      match rc with Some (_, _, t) => [(None, t)] | None => [] end ++ params_names ps ++ params_names rs
  end.
(** The names that a declaration puts into the package block.  (Methods are not in it.) *)
Definition declares (d : gdecl) : list string :=
  match d with
  | DConst _ l | DVar _ l => flat_map (fun v : gvalue => fst (fst v)) l
  | DType _ l => map (fun '(n, _, _) => n) l
  | DFunc None n _ _ => [n]
  | DFunc (Some _) _ _ _ => []
  end.
(** The names of receiver, parameters and results: their scope is the body. *)
Definition param_names (l : list gparam) : list string :=
  flat_map (fun '(n, _, _) => match n with Some n => [n] | None => [] end) l.
Definition locals (d : gdecl) : list string :=
  match d with
  | DFunc rc _ (ps, rs) _ =>
      match rc with Some (Some r, _, _) => [r] | _ => [] end ++ param_names ps ++ param_names rs
  | _ => []
  end.
(** The names followed by a dot (and not preceded by one) in a piece of code. *)
Fixpoint selected (after_dot : bool) (ts : list token) : list string :=
  match ts with
  | [] => []
  | t :: r =>
      match t, r with
      | TIdent q, TOp o :: _ => if String.eqb o "." && negb after_dot then [q] else []
      | _, _ => []
      end ++ selected (match t with TOp o => String.eqb o "." | _ => false end) r
  end.
Definition body_of (d : gdecl) : list token := match d with DFunc _ _ _ b => b | _ => [] end.
(** Names before a dot in a body that are names of receiver, parameters or results. *)
Definition captured (d : gdecl) : list string :=
  filter (fun n => existsb (String.eqb n) (locals d)) (selected false (body_of d)).

(** The names that no import of a file may have, or nothing that is meant to be in another package
    or in the universe block would be found there. *)
Definition reserved (ds : list gdecl) : list string :=
  "init" ::                                              (* "cannot import package as init" *)
  flat_map declares ds ++                                (* in the file block and in the package block *)
  flat_map (fun d => flat_map (fun '(q, n) => match q with None => [n] | Some _ => [] end) (decl_names d)) ds ++
                                                         (* names without package: of the package or predeclared *)
  flat_map captured ds.                                  (* hidden in a body that uses them *)

(** The names that the imports of a file introduce. *)
Definition import_names (real : string -> string) (g : gfile) : list string :=
  map (effective_name real) (map import_of (GImports g)).
(** Every name in the file is found where it is meant to be. *)
Definition in_order (real : string -> string) (g : gfile) : Prop :=
  NoDup (import_names real g) /\ forall n, In n (import_names real g) -> ~ In n (reserved (GDecls g)).
(** The file means [g']: its names are in order and, with the qualifiers resolved, it is [g']. *)
Definition means (real : string -> string) (g g' : gfile) : Prop :=
  in_order real g /\ resolve_file real g = Some g'.

(** The name that a request for an import can lead to: the name asked for, or the last element of
    the path, alone or followed by a number. *)
Definition may_be_called (r : string * string) (n : string) : Prop :=
  exists k, n = candidate (if String.eqb (snd r) "" then path_Base (fst r) else snd r) k.

(** ** Use of imports.  "imported and not used" is an error: every import must be the qualifier of a
    name in a type or stand before a dot in the code. *)
Definition type_qualifiers (ds : list gdecl) : list string :=
  flat_map (fun d => flat_map (fun '(q, _) => match q with Some q => [q] | None => [] end) (decl_names d)) ds.
Definition code_of (d : gdecl) : list (list token) :=
  match d with
  | DConst _ l | DVar _ l => flat_map (fun v : gvalue => match snd v with Some i => [i] | None => [] end) l
  | DType _ _ => []
  | DFunc _ _ _ b => [b]
  end.
Definition used (ds : list gdecl) : list string := type_qualifiers ds ++ flat_map (selected false) (flat_map code_of ds).
