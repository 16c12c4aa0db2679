(** Proofs about comments, files, symbols, receivers and code blocks. *)
From Verif Require Import Base BaseFacts GoPath Types SpecTypes TypesFacts Imports Conv Fmt World SpecWorld
  SpecGo SpecFile FileLexProofs DeclText.

(** ** Comments *)
Lemma split_on_ne c s : split_on c s <> [].
Proof. destruct s as [|a s]; cbn; [discriminate|]. destruct (Ascii.eqb a c); [discriminate|]. destruct (split_on c s); discriminate. Qed.
Lemma join_split c s : join (String c "") (split_on c s) = s.
Proof.
  induction s as [|a s IH]; [reflexivity|]. cbn [split_on]. pose proof (split_on_ne c s) as NE.
  destruct (Ascii.eqb_spec a c) as [->|NC].
  - destruct (split_on c s) as [|x l] eqn:E; [congruence|]. 
    change (join (String c "") ("" :: x :: l)) with (String c (join (String c "") (x :: l))). rewrite IH. auto.
  - destruct (split_on c s) as [|x l]; [congruence|]. rewrite <- IH. destruct l; reflexivity.
Qed.
Lemma writeComment_text c : c <> "" -> exists lines, lines_of c lines /\ writeComment c = comment_text lines.
Proof.
  intros NE. exists (split_on (ch 10) c). split; [split; [|split]|].
  - apply split_on_ne.
  - apply Forall_forall. intros l L I. pose proof (split_no_newline c l L _ I) as X. discriminate X.
  - apply join_split.
  - unfold writeComment. apply String.eqb_neq in NE. rewrite NE. unfold comment_text.
    induction (split_on (ch 10) c) as [|l ls IH]; [reflexivity|]. cbn [fold_right map]. rewrite IH.
    rewrite !append_assoc. reflexivity.
Qed.
Lemma writeComment_spec c : (c = "" -> writeComment c = "") /\
  (c <> "" -> exists lines, lines_of c lines /\ writeComment c = comment_text lines) /\
  (forall rest, tokens (writeComment c ++ rest) = tokens rest).
Proof.
  split; [intros ->; reflexivity|]. split; [apply writeComment_text|].
  intros rest. unfold tokens. rewrite (comment_fl c rest). destruct (flexer _ rest); reflexivity.
Qed.

(** ** Files *)
Lemma has_byte_In c s : has_byte c s = true <-> In c (list_ascii_of_string s).
Proof.
  induction s as [|a s IH]; [split; [discriminate|intros []]|]. cbn [has_byte list_ascii_of_string In].
  rewrite orb_true_iff, IH, Ascii.eqb_eq. reflexivity.
Qed.
Lemma strip_no_slash s : has_byte slash s = false -> strip_trailing_slashes s = s.
Proof.
  induction s as [|a s IH]; auto. cbn [has_byte strip_trailing_slashes]. intros H.
  apply orb_false_iff in H as [H1 H2]. rewrite IH by auto. destruct s; auto. rewrite H1. auto.
Qed.
Lemma after_no_slash s : has_byte slash s = false -> after_last_slash s = s.
Proof.
  destruct s as [|a s]; auto. cbn [has_byte after_last_slash]. intros H.
  apply orb_false_iff in H as [H1 H2]. rewrite H1, H2. auto.
Qed.
Lemma after_slash_free s : has_byte slash (after_last_slash s) = false.
Proof.
  induction s as [|a s IH]; auto. cbn [after_last_slash]. destruct (has_byte slash s) eqn:H; auto.
  destruct (Ascii.eqb a slash) eqn:A; auto. cbn [has_byte]. rewrite A, H. auto.
Qed.
Lemma ext_go s : ext_of_elem s = ".go" <-> exists stem, s = (stem ++ ".go")%string.
Proof.
  split.
  - induction s as [|c s IH]; [discriminate|]. cbn [ext_of_elem]. intros H.
    destruct (ext_of_elem s) as [|d e] eqn:E.
    + destruct (Ascii.eqb c "."%char); [|discriminate]. exists "". exact H.
    + destruct (IH H) as (stem & ->). exists (String c stem). auto.
  - intros (stem & ->). induction stem as [|c stem IH]; [reflexivity|]. cbn [append ext_of_elem]. rewrite IH. auto.
Qed.
Section Files.
Context {TD : Type}.
Lemma NewGoFile_spec name path pkg (w : World TD) :
  (go_name name -> NewGoFile name path pkg w =
     (Ok (List.length (files w)),
      set_files (files w ++ [mkFile (NewImportsFor path) name "" "" pkg "" []]) w)) /\
  (~ go_name name -> exists m, NewGoFile name path pkg w = (Panic m, w)).
Proof.
  unfold NewGoFile, go_name, spanic. split.
  - intros (NS & stem & E). change "/"%char with slash in NS.
    assert (B : has_byte slash name = false).
    { destruct (has_byte slash name) eqn:H; auto. apply has_byte_In in H. contradiction. }
    assert (NE : name <> "") by (subst; destruct stem; discriminate).
    unfold filepath_Base, path_Base, filepath_Ext. rewrite strip_no_slash, after_no_slash by auto.
    apply String.eqb_neq in NE. rewrite NE, String.eqb_refl. cbn [negb].
    replace (ext_of_elem name) with ".go" by (symmetry; apply ext_go; eauto). reflexivity.
  - intros H. destruct (String.eqb_spec (filepath_Base name) name) as [E|]; cbn [negb]; [|eauto].
    destruct (String.eqb_spec (filepath_Ext name) ".go") as [X|]; cbn [negb]; [|eauto].
    exfalso. apply H. unfold filepath_Base, path_Base in E.
    destruct (String.eqb_spec name ""); [subst; discriminate X|]. cbv zeta in E.
    destruct (String.eqb (after_last_slash (strip_trailing_slashes name)) ""); [subst; discriminate X|].
    assert (B : has_byte slash name = false) by (rewrite <- E; apply after_slash_free).
    split.
    + intros I. apply has_byte_In in I. unfold slash in B. congruence.
    + apply ext_go. unfold filepath_Ext in X. rewrite after_no_slash in X; auto.
Qed.

(** ** Symbols *)
Lemma Symbol_String_qualified s : Symbol_String s = qualified (SymPackage s) (SymName s).
Proof.
  unfold Symbol_String, qualified. destruct (String.eqb (PkgName (SymPackage s)) ""); auto.
Qed.
Variable w : World TD.
Lemma SymbolAt_spec v i : ValueSpec_SymbolAt v i w =
  match (if (i <? 0)%Z then @None string else nth_error (VNames v) (Z.to_nat i)), VParent v return res Symbol with
  | None, _ => Panic index_oob
  | Some n, None => Panic ("cannot use " ++ n ++ " as symbol because it has not been associated with a file")%string
  | Some n, Some f => match nth_error (files w) f with
                      | Some F => Ok (mkSymbol (GoFile_Package F) n)
                      | None => @Panic Symbol nil_deref
                      end
  end.
Proof.
  unfold ValueSpec_SymbolAt, file_package, rd. destruct (if (i <? 0)%Z then @None string else nth_error (VNames v) (Z.to_nat i)); auto.
  destruct (VParent v) as [f|]; auto. destruct (nth_error (files w) f); auto.
Qed.
Lemma value_symbols v f F : VParent v = Some f -> nth_error (files w) f = Some F ->
  (forall i n, nth_error (VNames v) i = Some n ->
     ValueSpec_SymbolAt v (Z.of_nat i) w = Ok (mkSymbol (GoFile_Package F) n)) /\
  (forall i, (i < 0 \/ Z.of_nat (List.length (VNames v)) <= i)%Z -> is_ok (ValueSpec_SymbolAt v i w) = false) /\
  (forall n, VNames v = [n] -> ValueSpec_ToSymbol v w = Ok (mkSymbol (GoFile_Package F) n)) /\
  (List.length (VNames v) <> 1 -> is_ok (ValueSpec_ToSymbol v w) = false) /\
  ValueSpec_String v w = Ok (join ", " (map (qualified (GoFile_Package F)) (VNames v))).
Proof.
  intros P NF.
  assert (A : forall i n, nth_error (VNames v) i = Some n ->
     ValueSpec_SymbolAt v (Z.of_nat i) w = Ok (mkSymbol (GoFile_Package F) n)).
  { intros i n H. rewrite SymbolAt_spec. destruct (Z.ltb_spec (Z.of_nat i) 0); [lia|].
    rewrite Nat2Z.id, H, P, NF. auto. }
  assert (C : forall n, VNames v = [n] -> ValueSpec_ToSymbol v w = Ok (mkSymbol (GoFile_Package F) n)).
  { intros n H. unfold ValueSpec_ToSymbol. rewrite H. cbn [List.length Nat.eqb negb].
    apply (A 0). rewrite H. auto. }
  split; [exact A|]. split; [|split; [exact C|split]].
  - intros i H. rewrite SymbolAt_spec. destruct (Z.ltb_spec i 0); auto.
    replace (nth_error (VNames v) (Z.to_nat i)) with (@None string); auto.
    symmetry. apply nth_error_None. lia.
  - intros H. unfold ValueSpec_ToSymbol. destruct (Nat.eqb_spec (List.length (VNames v)) 1); [contradiction|]. auto.
  - unfold ValueSpec_String. destruct (Nat.eqb_spec (List.length (VNames v)) 1) as [E|E]; cbn [negb]; rewrite P.
    + destruct (VNames v) as [|n [|m l]] eqn:V; try discriminate. rewrite (C n eq_refl). cbn [rbind].
      rewrite Symbol_String_qualified. reflexivity.
    + assert (G : forall l k, (forall i n, nth_error l i = Some n -> nth_error (VNames v) (k + i) = Some n) ->
        all_ok (map (fun i => rbind (ValueSpec_SymbolAt v (Z.of_nat i) w) (fun s => Ok (Symbol_String s)))
                  (seq k (List.length l))) = Ok (map (qualified (GoFile_Package F)) l)).
      { induction l as [|n l IH]; intros k H; [reflexivity|]. cbn [List.length seq map all_ok].
        rewrite (A k n) by (rewrite <- (Nat.add_0_r k); apply H; auto). cbn [rbind].
        rewrite Symbol_String_qualified. cbn [SymPackage SymName].
        rewrite IH; [reflexivity|]. intros i m E'. replace (S k + i) with (k + S i) by lia. apply H. auto. }
      rewrite G; auto.
Qed.
Lemma value_unattached v : VParent v = None ->
  (forall i, is_ok (ValueSpec_SymbolAt v i w) = false) /\ is_ok (ValueSpec_ToSymbol v w) = false /\
  ValueSpec_String v w = Ok (join ", " (VNames v)).
Proof.
  intros P. assert (A : forall i, is_ok (ValueSpec_SymbolAt v i w) = false).
  { intros i. rewrite SymbolAt_spec, P. destruct (if (i <? 0)%Z then @None string else nth_error (VNames v) (Z.to_nat i)); auto. }
  split; auto. split.
  - unfold ValueSpec_ToSymbol. destruct (negb _); auto.
  - unfold ValueSpec_String. rewrite P. destruct (Nat.eqb_spec (List.length (VNames v)) 1) as [E|E]; cbn [negb]; auto.
    destruct (VNames v) as [|n [|m l]]; try discriminate. auto.
Qed.
Lemma type_symbols env T :
  (TSName T = "" -> is_ok (TypeSpec_ToSymbol T w) = false /\ TypeSpec_ToTypeName T w = Ok (TSUnderlying T) /\
                    TypeSpec_String env T w = typeNameToString (isPrint env) (TSUnderlying T)) /\
  (TSName T <> "" -> TSParent T = None -> is_ok (TypeSpec_ToSymbol T w) = false /\
                     is_ok (TypeSpec_ToTypeName T w) = false /\ TypeSpec_String env T w = Ok (TSName T)) /\
  (forall f F, TSName T <> "" -> TSParent T = Some f -> nth_error (files w) f = Some F ->
     TypeSpec_ToSymbol T w = Ok (mkSymbol (GoFile_Package F) (TSName T)) /\
     TypeSpec_ToTypeName T w = Ok (NamedType (mkSymbol (GoFile_Package F) (TSName T))) /\
     TypeSpec_String env T w = Ok (qualified (GoFile_Package F) (TSName T))).
Proof.
  unfold TypeSpec_String, TypeSpec_ToTypeName, TypeSpec_ToSymbol, file_package, rd. split; [|split].
  - intros ->. auto.
  - intros N ->. apply String.eqb_neq in N. rewrite N. auto.
  - intros f F N -> NF. apply String.eqb_neq in N. rewrite N, NF. cbn [rbind].
    rewrite Symbol_String_qualified. auto.
Qed.
Lemma func_symbols fn :
  (FNParent fn = None -> is_ok (FuncSpec_ToSymbol fn w) = false /\ FuncSpec_String fn w = Ok (FNName fn)) /\
  (forall f F, FNParent fn = Some f -> nth_error (files w) f = Some F ->
     match FNReceiver fn with
     | None => FuncSpec_ToSymbol fn w = Ok (SomSymbol (mkSymbol (GoFile_Package F) (FNName fn))) /\
               FuncSpec_String fn w = Ok (qualified (GoFile_Package F) (FNName fn))
     | Some r => FuncSpec_ToSymbol fn w =
                   Ok (SomMethod (mkMethodRef (mkSymbol (GoFile_Package F) (RcvType r)) (FNName fn))) /\
                 FuncSpec_String fn w = Ok (FNName fn)
     end).
Proof.
  unfold FuncSpec_String, FuncSpec_ToSymbol, file_package, rd. split.
  - intros ->. destruct (FNReceiver fn); auto.
  - intros f F -> NF. rewrite NF. cbn [rbind]. destruct (FNReceiver fn); auto.
    cbn [rbind SymbolOrMethodRef_String]. rewrite Symbol_String_qualified. auto.
Qed.

(** ** Method types *)
Lemma last_arg_cons (a : ArgType) l : last_arg (a :: l) = match last_arg l with None => Some a | x => x end.
Proof.
  unfold last_arg. cbn [map]. destruct l as [|b l]; [reflexivity|]. cbn [map last].
  fold (@map ArgType (option ArgType)). revert b. induction l as [|c l IH]; intros b; [reflexivity|].
  cbn [map last]. apply (IH c).
Qed.
Lemma method_sig_ok a s : ArgTy a <> TNil -> tKind (ArgTy a) <> KindSlice ->
  FuncTypeFromSig (mkSig (a :: Args s) (Results s) (IsVariadic s)) =
  match FuncTypeFromSig s with
  | Ok _ => Ok (TFunc (mkSig (a :: Args s) (Results s) (IsVariadic s)))
  | Panic m => Panic m
  end.
Proof.
  intros N K. unfold FuncTypeFromSig. cbn [Args Results IsVariadic existsb].
  replace (is_nil (ArgTy a)) with false by (destruct (ArgTy a); auto; congruence). cbn [orb].
  destruct (existsb _ (Args s)); auto. destruct (existsb _ (Results s)); auto.
  rewrite last_arg_cons. destruct (IsVariadic s); cbn [andb]; auto.
  destruct (last_arg (Args s)) as [b|]; [destruct (negb _); auto|].
  destruct (ArgTy a); cbn in K |- *; auto; congruence.
Qed.
Lemma FuncSpec_ToTypeName_spec fn :
  (FNReceiver fn = None -> FuncSpec_ToTypeName fn w = FuncTypeFromSig (FNSig fn)) /\
  (forall r, FNReceiver fn = Some r ->
     (FNParent fn = None -> is_ok (FuncSpec_ToTypeName fn w) = false) /\
     (forall f F, FNParent fn = Some f -> nth_error (files w) f = Some F ->
        FuncSpec_ToTypeName fn w =
        match FuncTypeFromSig (FNSig fn) with
        | Ok _ =>
            let named := TNamed (mkSymbol (GoFile_Package F) (RcvType r)) in
            Ok (TFunc (mkSig (mkArg (RcvName r) (if RcvIsPointer r then TPtr named else named) :: Args (FNSig fn))
                             (Results (FNSig fn)) (IsVariadic (FNSig fn))))
        | Panic m => Panic m
        end)).
Proof.
  unfold FuncSpec_ToTypeName. split; [intros ->; auto|]. intros r ->. split; [intros ->; auto|].
  intros f F -> NF. unfold file_package, rd. rewrite NF. cbn [rbind]. cbv zeta. unfold PointerType, NamedType.
  destruct (RcvIsPointer r); cbn [is_nil rbind]; rewrite method_sig_ok by (cbn; discriminate);
    destruct (FuncTypeFromSig (FNSig fn)); auto.
Qed.
Lemma InterfaceMethod_ToTypeName_spec n s t T f F : nth_error (types w) t = Some T ->
  TSName T <> "" -> TSParent T = Some f -> nth_error (files w) f = Some F ->
  InterfaceMethod_ToMethodRef n (Some t) w = Ok (mkMethodRef (mkSymbol (GoFile_Package F) (TSName T)) n) /\
  InterfaceMethod_ToTypeName n s (Some t) w =
    match FuncTypeFromSig s with
    | Ok _ => Ok (TFunc (mkSig (mkArg "" (TNamed (mkSymbol (GoFile_Package F) (TSName T))) :: Args s)
                               (Results s) (IsVariadic s)))
    | Panic m => Panic m
    end.
Proof.
  intros NT NN P NF. unfold InterfaceMethod_ToMethodRef, InterfaceMethod_ToTypeName, rd. rewrite NT. cbn [rbind].
  destruct (type_symbols {| isPrint := fun _ => true; fmt_verb := fun _ _ _ => ""; fmt_other := fun _ _ _ => "";
     tq := fun _ d => sret d; texec := fun _ _ _ => Ok "" |} T) as (_ & _ & H).
  destruct (H f F NN P NF) as (-> & -> & _). cbn [rbind]. split; auto. cbn [app].
  apply method_sig_ok; discriminate.
Qed.
Lemma InterfaceMethod_unattached n s : is_ok (InterfaceMethod_ToMethodRef n None w) = false /\
  is_ok (InterfaceMethod_ToTypeName n s None w) = false.
Proof. auto. Qed.

(** ** Receivers *)
Lemma receivers_spec name t : wf t = true ->
  NewReceiverForType name (IsName t) w =
    match t with
    | TNamed s => Ok (mkReceiver name (SymName s) false)
    | TPtr (TNamed s) => Ok (mkReceiver name (SymName s) true)
    | _ => Panic "cannot create a ReceiverSpec for an unnamed type"
    end /\
  NewPointerReceiverForType name (IsName t) w =
    match t with
    | TNamed s => Ok (mkReceiver name (SymName s) true)
    | _ => Panic "cannot create a pointer ReceiverSpec for an unnamed type"
    end.
Proof.
  intros WF. unfold NewReceiverForType, NewPointerReceiverForType.
  destruct t as [|k|s|e|e|e n|e k|e d|sg|fs|ms es]; try discriminate WF; split; try reflexivity.
  destruct e; try reflexivity.
Qed.
Lemma receivers_unchecked name :
  NewReceiverForType name NoType w = Ok (mkReceiver name "" false) /\
  NewPointerReceiverForType name NoType w = Ok (mkReceiver name "" true) /\
  is_ok (NewReceiver name "") = false /\ NewPointerReceiver name "" = Ok (mkReceiver name "" true) /\
  (forall t, t <> "" -> NewReceiver name t = Ok (mkReceiver name t false) /\ NewPointerReceiver name t = Ok (mkReceiver name t true)).
Proof.
  do 4 (split; [reflexivity|]). intros t N. unfold NewReceiver. apply String.eqb_neq in N. rewrite N. split; reflexivity.
Qed.
Lemma receivers_spec_spec name id T : nth_error (types w) id = Some T ->
  (TSName T = "" -> is_ok (NewReceiverForType name (IsSpec id) w) = false /\
                    is_ok (NewPointerReceiverForType name (IsSpec id) w) = false) /\
  (TSName T <> "" -> NewReceiverForType name (IsSpec id) w = Ok (mkReceiver name (TSName T) false) /\
                     NewPointerReceiverForType name (IsSpec id) w = Ok (mkReceiver name (TSName T) true)).
Proof.
  intros NT. unfold NewReceiverForType, NewPointerReceiverForType, rd. rewrite NT. cbn [rbind]. split.
  - intros ->. auto.
  - intros N. apply String.eqb_neq in N. rewrite N. auto.
Qed.
End Files.

(** ** Code blocks *)
Section Blocks.
Context {TD : Type}.
Notation World := (World TD).

Lemma upd_length {A} i (v : A) l : List.length (upd i v l) = List.length l.
Proof. revert i; induction l as [|a l IH]; intros [|i]; cbn; auto. Qed.
Lemma nth_upd_same {A} i (v : A) l : i < List.length l -> nth_error (upd i v l) i = Some v.
Proof. revert i; induction l as [|a l IH]; intros [|i] H; cbn in *; auto; try lia. apply IH. lia. Qed.
Lemma nth_upd_other {A} i j (v : A) l : i <> j -> nth_error (upd i v l) j = nth_error l j.
Proof. revert i j; induction l as [|a l IH]; intros [|i] [|j] H; cbn; auto; try congruence. Qed.
Lemma upd_same {A} i (v : A) l : nth_error l i = Some v -> upd i v l = l.
Proof. revert i; induction l as [|a l IH]; intros [|i] H; cbn in *; try discriminate; [injection H as ->|f_equal]; auto. Qed.
Lemma upd_upd {A} i (u v : A) l : upd i v (upd i u l) = upd i v l.
Proof. revert i; induction l as [|a l IH]; intros [|i]; cbn; auto. f_equal. auto. Qed.

Implicit Types w : World.
Lemma element_part_grow (w w' : World) e p :
  (forall i x, nth_error (argss w) i = Some x -> nth_error (argss w') i = Some x) ->
  (forall i x, nth_error (templs w) i = Some x -> nth_error (templs w') i = Some x) ->
  element_part w e p -> element_part w' e p.
Proof. destruct e, p; cbn; auto; intros A B []; auto. Qed.
Lemma Forall2_weaken {A B} (P Q : A -> B -> Prop) l m :
  (forall a b, P a b -> Q a b) -> Forall2 P l m -> Forall2 Q l m.
Proof. intros H; induction 1; constructor; auto. Qed.
Lemma Forall2_upd {A B} (P : A -> B -> Prop) l m i a b : Forall2 P l m -> P a b -> Forall2 P (upd i a l) (upd i b m).
Proof. intros F; revert i; induction F; intros [|i] H0; cbn; constructor; auto. Qed.
Lemma Forall2_nth {A B} (P : A -> B -> Prop) l m d i : Forall2 P l m -> i < List.length m ->
  exists a, nth_error l i = Some a /\ P a (nth i m d).
Proof.
  intros F; revert i; induction F; intros [|i] H0; cbn in *; try lia; eauto. apply IHF. lia.
Qed.
Lemma Forall2_len {A B} (P : A -> B -> Prop) l m : Forall2 P l m -> List.length l = List.length m.
Proof. induction 1; cbn; auto. Qed.
Lemma nth_error_grow {A} (l : list A) x i y : nth_error l i = Some y -> nth_error (l ++ [x]) i = Some y.
Proof. intros H. rewrite nth_error_app1; auto. apply nth_error_Some. congruence. Qed.
Lemma printf_represents (w : World) m cb f a : represents w m -> cb < List.length m ->
  CodeBlock_Printf cb f a w = (Ok tt, snd (CodeBlock_Printf cb f a w)) /\
  represents (snd (CodeBlock_Printf cb f a w)) (upd cb (nth cb m [] ++ [PFormat f a]) m).
Proof.
  intros R L. destruct (Forall2_nth (A := CodeBlock) _ _ _ [] cb R L) as (b & N & FB).
  unfold CodeBlock_Printf, sbind, get, alloc, put. rewrite N. cbn [fst snd]. split; auto.
  unfold represents. cbn [blocks set_blocks set_argss].
  assert (G : forall e p, element_part w e p ->
     element_part (set_blocks (upd cb (b ++ [Line f (List.length (argss w))]) (blocks w))
                     (set_argss (argss w ++ [a]) w)) e p).
  { intros e p. apply element_part_grow; cbn [argss templs set_blocks set_argss]; auto.
    intros i x. apply nth_error_grow. }
  apply Forall2_upd.
  - eapply Forall2_weaken; [|exact R]. intros x y. apply Forall2_weaken. auto.
  - apply Forall2_app; [eapply Forall2_weaken; eauto|]. constructor; [|constructor]. cbn. split; auto.
    rewrite nth_error_app2 by lia. rewrite Nat.sub_diag. auto.
Qed.
Lemma perform_represents w m c : represents w m -> in_range c (List.length m) -> represents (perform c w) (built c m).
Proof.
  intros R IR. destruct c as [cb f a|cb f a|cb t|cb t|cb t d|cb code|]; cbn [perform built in_range] in *;
    try (apply printf_represents; auto; fail).
  - destruct (Forall2_nth (A := CodeBlock) _ _ _ [] cb R IR) as (b & N & FB).
    unfold CodeBlock_RenderCode, sbind, get, alloc, put. rewrite N. cbn [fst snd].
    unfold represents. cbn [blocks set_blocks set_templs].
    assert (G : forall e p, element_part w e p ->
       element_part (set_blocks (upd cb (b ++ [Templ (List.length (templs w))]) (blocks w))
                       (set_templs (templs w ++ [(t, d)]) w)) e p).
    { intros e p. apply element_part_grow; cbn [argss templs set_blocks set_templs]; auto.
      intros i x. apply nth_error_grow. }
    apply Forall2_upd.
    + eapply Forall2_weaken; [|exact R]. intros x y. apply Forall2_weaken. auto.
    + apply Forall2_app; [eapply Forall2_weaken; eauto|]. constructor; [|constructor]. cbn.
      rewrite nth_error_app2 by lia. rewrite Nat.sub_diag. auto.
  - destruct IR as [L1 L2]. destruct (Forall2_nth (A := CodeBlock) _ _ _ [] cb R L1) as (b & N & FB).
    destruct (Forall2_nth (A := CodeBlock) _ _ _ [] code R L2) as (c & NC & FC).
    unfold CodeBlock_AddCode, sbind, get, put. rewrite N, NC. cbn [fst snd].
    unfold represents. cbn [blocks set_blocks].
    assert (G : forall e p, element_part w e p -> element_part (set_blocks (upd cb (b ++ c) (blocks w)) w) e p).
    { intros e p. apply element_part_grow; auto. }
    apply Forall2_upd.
    + eapply Forall2_weaken; [|exact R]. intros x y. apply Forall2_weaken. auto.
    + apply Forall2_app; eapply Forall2_weaken; eauto.
  - unfold NewCodeBlock, alloc. cbn [snd]. unfold represents. cbn [blocks set_blocks]. apply Forall2_app.
    + eapply Forall2_weaken; [|exact R]. intros x y. apply Forall2_weaken.
      intros e p. apply element_part_grow; auto.
    + constructor; [constructor|constructor].
Qed.
Lemma represents_text env w m cb : represents w m -> cb < List.length m ->
  CodeBlock_writeTo env w cb = concat_res (map (part_text env w) (nth cb m [])).
Proof.
  intros R L. destruct (Forall2_nth (A := CodeBlock) _ _ _ [] cb R L) as (b & N & F).
  unfold CodeBlock_writeTo, rd. rewrite N. cbn [rbind]. clear N.
  induction F as [|e p b ps H F IH]; [reflexivity|]. cbn [map concat_res]. rewrite IH. f_equal.
  destruct e, p; cbn in H; try contradiction; cbn; unfold rd.
  - destruct H as [-> ->]. reflexivity.
  - rewrite H. reflexivity.
Qed.
Definition no_blocks (w : World) : Prop := blocks w = [].
Lemma built_text env (h : list (building TD)) : forall w m, represents w m -> all_in_range h m ->
  let w' := fold_left (fun w c => perform c w) h w in
  let m' := fold_left (fun m c => built c m) h m in
  forall cb, cb < List.length m' ->
    CodeBlock_writeTo env w' cb = concat_res (map (part_text env w') (nth cb m' [])).
Proof.
  induction h as [|c h IH]; intros w m R IR; cbn [fold_left].
  - intros cb L. apply represents_text; auto.
  - destruct IR as [I1 I2]. apply IH; auto. apply perform_represents; auto.
Qed.

(** *** Print and Println *)
Lemma append_nil_r' s : (s ++ "" = s)%string.
Proof. apply append_nil_r. Qed.
Lemma print_text env (w : World) text :
  part_text env w (PFormat "%s" [AString text]) = Ok text /\
  part_text env w (PFormat ("%s" ++ newline) [AString text]) = Ok (text ++ newline)%string.
Proof.
  split; cbn [part_text]; unfold Fprintf; cbn; [rewrite append_nil_r|]; reflexivity.
Qed.
End Blocks.
