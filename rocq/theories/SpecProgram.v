(** Specification: programs that use the library, as histories of calls of its public functions
    on any number of files, and what such a history did. *)
From Verif Require Import Base GoPath Types SpecTypes Imports SpecImports Conv World SpecGo SpecRender SpecCalls SpecWorld.

(** What is added to a file: an element, or a spec in a new declaration of its own. *)
Inductive addition := AddedElement (e : FileElement) | AddedConst (id : nat) | AddedVar (id : nat) | AddedType (id : nat).
(** One call.  A program may also make a slice of arguments, write to it, and pass it to Printf
    with [...]. *)
Inductive api_call {TD : Type} :=
| PNewFile (name path package : string)
| PNewConst (names : list string) | PNewVar (names : list string)
| PNewField (name : string) (t : TypeNameOrSpec)
| PNewEmbed (s : Symbol) | PNewIMethod (name : string)
| PNewFunc (name : string) | PNewMethod (rcvr : option ReceiverSpec) (name : string)
| PNewTypeSpec (name : string) (t : TypeNameOrSpec) | PNewTypeAlias (name : string) (t : TypeNameOrSpec)
| PNewStruct (name : string) (fs : list nat) | PNewInterface (name : string) (es : list nat)
| PNewConstDecl (l : list nat) | PNewVarDecl (l : list nat) | PNewTypeDecl (l : list nat)
| PSet (s : setting)
| PInitConst (id : nat) (format : string) (args : list Arg) | PInitVar (id : nat) (format : string) (args : list Arg)
| PBuild (b : building TD)
| PFuncPrint (id : nat) (text : string) | PFuncPrintln (id : nat) (text : string)
| PFuncPrintf (id : nat) (format : string) (args : list Arg) | PFuncPrintlnf (id : nat) (format : string) (args : list Arg)
| PFuncRender (id template : nat) (data : TD) | PFuncAddCode (id cb : nat)
| PPrint (text : string) | PPrintln (text : string)
| PPrintf (format : string) (args : list Arg) | PPrintlnf (format : string) (args : list Arg)
| PRender (template : nat) (data : TD)
| PMakeArgs (l : list Arg) | PSetArg (a i : nat) (x : Arg)
| PPrintfSlice (cb : nat) (format : string) (a : nat)
| PAdd (f : nat) (a : addition)
| PImport (f : nat) (c : call)
| PTemplateData (f : nat) (data : TD)
| PWrite (fuel f : nat).
Arguments api_call : clear implicits.

Section Program.
Context {TD : Type}.
Variable env : Env TD.
Notation World := (World TD).
Notation WM := (WM (TD := TD)).
(** The call returns, or panics; the program goes on in either case (it may recover). *)
Definition ended {A} (m : WM A) (w : World) : res unit * World :=
  (match fst (m w) with Ok _ => Ok tt | Panic e => Panic e end, snd (m w)).
Definition add (f : nat) (a : addition) : WM unit :=
  match a with
  | AddedElement e => AddElement f e
  | AddedConst id => AddConst f id
  | AddedVar id => AddVar f id
  | AddedType id => AddType f id
  end.
(** The program writes [s[i] = x] to its slice of arguments. *)
Definition set_arg (a i : nat) (x : Arg) : WM unit :=
  do l <- get argss a ;;
  match nth_error l i with
  | Some _ => put argss set_argss a (upd i x l)
  | None => spanic "index out of range"
  end.
Definition do_call (c : api_call TD) (w : World) : res unit * World :=
  match c with
  | PNewFile n p k => ended (NewGoFile n p k) w
  | PNewConst l => ended (NewConst l) w
  | PNewVar l => ended (NewVar l) w
  | PNewField n t => ended (NewField n t) w
  | PNewEmbed s => ended (NewInterfaceEmbed s) w
  | PNewIMethod n => ended (NewInterfaceMethod n) w
  | PNewFunc n => ended (NewFunc n) w
  | PNewMethod r n => ended (NewMethod r n) w
  | PNewTypeSpec n t => ended (NewTypeSpec n t) w
  | PNewTypeAlias n t => ended (NewTypeAlias n t) w
  | PNewStruct n l => ended (NewStructTypeSpec n l) w
  | PNewInterface n l => ended (NewInterfaceTypeSpec n l) w
  | PNewConstDecl l => ended (NewConstDecl l) w
  | PNewVarDecl l => ended (NewVarDecl l) w
  | PNewTypeDecl l => ended (NewTypeDecl l) w
  | PSet s => SpecCalls.perform s w
  | PInitConst id f a => ended (Value_Initialize consts set_consts id f a) w
  | PInitVar id f a => ended (Value_Initialize vars set_vars id f a) w
  | PBuild b => (Ok tt, SpecWorld.perform b w)
  | PFuncPrint id t => Func_Print id t w
  | PFuncPrintln id t => Func_Println id t w
  | PFuncPrintf id f a => Func_Printf id f a w
  | PFuncPrintlnf id f a => Func_Printlnf id f a w
  | PFuncRender id t d => Func_RenderCode id t d w
  | PFuncAddCode id cb => Func_AddCode id cb w
  | PPrint t => ended (Print t) w
  | PPrintln t => ended (Println t) w
  | PPrintf f a => ended (Printf f a) w
  | PPrintlnf f a => ended (Printlnf f a) w
  | PRender t d => ended (RenderCode t d) w
  | PMakeArgs l => ended (make_args l) w
  | PSetArg a i x => set_arg a i x w
  | PPrintfSlice cb f a => CodeBlock_PrintfSlice cb f a w
  | PAdd f a => add f a w
  | PImport f c => ended (onImports f (fun i => (Ok tt, exec c i))) w
  | PTemplateData f d => ended (fun w => onImports f (tq env w d) w) w
  | PWrite fuel f => ended (source env fuel f) w
  end.
Definition after (p : list (api_call TD)) (w : World) : World := fold_left (fun w c => snd (do_call c w)) p w.

(** The additions to file [f] that were made: those whose call returned. *)
Fixpoint added (f : nat) (p : list (api_call TD)) (w : World) : list addition :=
  match p with
  | [] => []
  | c :: r =>
      match c with
      | PAdd g a => if Nat.eqb g f then match fst (do_call c w) with Ok _ => [a] | Panic _ => [] end else []
      | _ => []
      end ++ added f r (snd (do_call c w))
  end.
(** [e] is the element that an addition gave the file.  A spec is the first of a declaration,
    which may have got more specs since. *)
Definition first_of (l : option (list nat)) (id : nat) : Prop := exists r, l = Some (id :: r).
Definition is_added (w : World) (a : addition) (e : FileElement) : Prop :=
  match a with
  | AddedElement e' => e = e'
  | AddedConst id => exists d, e = EConst d /\ first_of (option_map VDSpecs (nth_error (constDecls w) d)) id
  | AddedVar id => exists d, e = EVar d /\ first_of (option_map VDSpecs (nth_error (varDecls w) d)) id
  | AddedType id => exists d, e = EType d /\ first_of (option_map TDTypes (nth_error (typeDecls w) d)) id
  end.

(** The files made: name, import path and package name of each, in order. *)
Fixpoint made (p : list (api_call TD)) (w : World) : list (string * string * string) :=
  match p with
  | [] => []
  | c :: r =>
      match c with
      | PNewFile n q k => match fst (do_call c w) with Ok _ => [(n, q, k)] | Panic _ => [] end
      | _ => []
      end ++ made r (snd (do_call c w))
  end.
Definition identity (F : GoFile) : string * string * string := (FName F, pkgPath (FImports F), FPackageName F).

(** Template data is qualified by import calls only. *)
Definition imports_by_calls : Prop := forall w d i, exists h, snd (tq env w d i) = run h i.

(** The import calls on file [f], in order. *)
Definition calls_on (f : nat) (p : list (api_call TD)) : list call :=
  flat_map (fun c => match c with PImport g c => if Nat.eqb g f then [c] else [] | _ => [] end) p.
(** The program does not write the file or give its imports template data. *)
Definition unwritten (f : nat) (p : list (api_call TD)) : Prop :=
  forall c, In c p -> match c with PWrite _ g | PTemplateData g _ => g <> f | _ => True end.

(** ** The file of a spec *)
Inductive thing := AConstSpec (id : nat) | AVarSpec (id : nat) | ATypSpec (id : nat) | AFuncSpec (id : nat).
Definition file_of (w : World) (k : thing) : option nat :=
  match k with
  | AConstSpec id => obind (nth_error (consts w) id) VParent
  | AVarSpec id => obind (nth_error (vars w) id) VParent
  | ATypSpec id => obind (nth_error (types w) id) TSParent
  | AFuncSpec id => obind (nth_error (funcs w) id) FNParent
  end.
Definition among (id : nat) (l : option (list nat)) : bool := match l with Some l => existsb (Nat.eqb id) l | None => false end.
(** The spec is part of what is added: it is the spec, or one that the declaration has now. *)
Definition part_of (w : World) (a : addition) (k : thing) : bool :=
  match a, k with
  | AddedConst c, AConstSpec id | AddedVar c, AVarSpec id | AddedType c, ATypSpec id
  | AddedElement (EFunc c), AFuncSpec id => Nat.eqb id c
  | AddedElement (EConst d), AConstSpec id => among id (option_map VDSpecs (nth_error (constDecls w) d))
  | AddedElement (EVar d), AVarSpec id => among id (option_map VDSpecs (nth_error (varDecls w) d))
  | AddedElement (EType d), ATypSpec id => among id (option_map TDTypes (nth_error (typeDecls w) d))
  | _, _ => false
  end.
(** The file to which the spec was added last. *)
Fixpoint last_file (k : thing) (p : list (api_call TD)) (w : World) (f : option nat) : option nat :=
  match p with
  | [] => f
  | c :: r =>
      last_file k r (snd (do_call c w))
        match c with PAdd g a => if part_of w a k then Some g else f | _ => f end
  end.
(** No addition panicked. *)
Fixpoint additions_return (p : list (api_call TD)) (w : World) : Prop :=
  match p with
  | [] => True
  | c :: r =>
      match c with PAdd _ _ => fst (do_call c w) = Ok tt | _ => True end /\ additions_return r (snd (do_call c w))
  end.
End Program.
