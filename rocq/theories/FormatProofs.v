(** Proofs about formatted lines: C93. *)
From Coq Require Import Lia Decimal DecimalString DecimalN.
From Verif Require Import Base BaseFacts GoPath Utf8 Types SpecTypes Imports SpecImports ImportsProofs ImportsTheorems SpecLit LitProofs Conv Fmt World WorldProofs
  SpecGo SpecRender TextProofs TextTheorems SpecQualify QualifyProofs QualifyTheorems SourceProofs SourceTheorems SpecFormat QualifyExamples.

(** ** Decimal numbers *)
Lemma digits_acc d : forall acc, digits (Z.pos acc) (NilEmpty.string_of_uint d) = Some (Z.pos (Pos.of_uint_acc d acc)).
Proof.
  induction d; intros acc; [reflexivity|..];
    cbn [NilEmpty.string_of_uint digits Pos.of_uint_acc];
    match goal with |- (if ?b then _ else _) = _ => change b with true end; cbv iota;
    rewrite <- IHd; f_equal; vm_compute (Z.of_N _); lia.
Qed.
Lemma digits_uint d : digits 0 (NilEmpty.string_of_uint d) = Some (Z.of_N (N.of_uint d)).
Proof.
  induction d; [reflexivity|exact IHd|..];
    cbn [NilEmpty.string_of_uint digits N.of_uint Pos.of_uint];
    match goal with |- (if ?b then _ else _) = _ => change b with true end; cbv iota;
    match goal with |- digits ?z _ = _ => let y := eval vm_compute in z in change z with y end;
    rewrite digits_acc; reflexivity.
Qed.
Lemma dec_NilEmpty n : dec n = NilEmpty.string_of_uint (N.to_uint n).
Proof.
  unfold dec, NilZero.string_of_uint. destruct (N.to_uint n) eqn:E; auto.
  pose proof (Unsigned.of_to n) as O. rewrite E in O. cbn in O. rewrite <- O in E. discriminate.
Qed.
Lemma dec_number n : digits 0 (dec n) = Some (Z.of_N n).
Proof. rewrite dec_NilEmpty, digits_uint, Unsigned.of_to. auto. Qed.
Lemma dec_head n : exists c r, dec n = String c r /\ c <> "-"%char.
Proof.
  pose proof (dec_number n) as D. destruct (dec n) as [|c r] eqn:E.
  - exfalso. rewrite dec_NilEmpty in E. destruct (N.to_uint n) eqn:U; try discriminate.
    pose proof (Unsigned.of_to n) as O. rewrite U in O. cbn in O. rewrite <- O in U. discriminate.
  - exists c, r. split; auto. intros ->. discriminate.
Qed.
Lemma decZ_number z : number (decZ z) = Some z.
Proof.
  unfold decZ. destruct (Z.ltb_spec z 0).
  - destruct (dec_head (Z.to_N (- z))) as (c & r & E & _). rewrite E. cbn [append number]. rewrite <- E, dec_number. cbn [option_map].
    f_equal. lia.
  - destruct (dec_head (Z.to_N z)) as (c & r & E & N). rewrite E. unfold number.
    replace (match c with "-"%char => _ | _ => _ end) with (digits 0 (String c r)).
    + rewrite <- E, dec_number. f_equal. lia.
    + destruct c as [[] [] [] [] [] [] [] []]; try reflexivity. congruence.
Qed.

(** ** Formats *)
Lemma letter_verb v : letter v = true -> complex_directive v = false /\ Ascii.eqb v "%"%char = false.
Proof. intros H. destruct v as [[] [] [] [] [] [] [] []]; vm_compute in H; try discriminate; split; reflexivity. Qed.
Lemma parse_doubled s : forall r l, parse_format r = Some l ->
  parse_format (doubled s ++ r) = Some (map FLit (list_ascii_of_string s) ++ l).
Proof.
  induction s as [|c s IH]; intros r l H; [exact H|]. cbn [doubled list_ascii_of_string map app].
  destruct (Ascii.eqb_spec c "%"%char) as [->|N].
  - cbn [append parse_format]. rewrite (IH _ _ H). reflexivity.
  - cbn [append parse_format]. destruct (Ascii.eqb_spec c "%"%char); [congruence|]. rewrite (IH _ _ H). reflexivity.
Qed.
Definition fpieces (p : piece) : list fpiece :=
  match p with Plain s => map FLit (list_ascii_of_string s) | Put v _ => [FVerb v] end.
Lemma parse_pieces l : verbs_ok l -> parse_format (format_of l) = Some (flat_map fpieces l).
Proof.
  induction l as [|[s|v a] l IH]; intros V; [reflexivity|..]; cbn [format_of flat_map fpieces].
  - apply parse_doubled, IH. intros v a H. apply (V v a). right. auto.
  - destruct (letter_verb v) as [A B]; [apply (V v a); left; auto|].
    cbn [parse_format Ascii.eqb]. change (Ascii.eqb "%"%char "%"%char) with true. cbv iota. rewrite A, IH, B; [reflexivity|].
    intros v' a' H. apply (V v' a'). right. auto.
Qed.
Section Apply.
Variable show : ascii -> Arg -> string.
Lemma apply_literal s : forall r args, apply_format show (map FLit (list_ascii_of_string s) ++ r) args =
  ((s ++ fst (apply_format show r args))%string, snd (apply_format show r args)).
Proof.
  induction s as [|c s IH]; intros r args; cbn [list_ascii_of_string map app apply_format append].
  - destruct (apply_format show r args); auto.
  - rewrite IH. auto.
Qed.
(** each piece with the argument that is formatted in it *)
Fixpoint shown (l : list piece) (args : list Arg) : list string :=
  match l with
  | [] => []
  | Plain s :: r => s :: shown r args
  | Put v _ :: r => match args with a :: args' => show v a :: shown r args' | [] => [] end
  end.
Lemma apply_pieces l : forall args, List.length args = List.length (args_of l) ->
  apply_format show (flat_map fpieces l) args = (String.concat "" (shown l args), []).
Proof.
  assert (K : forall s l, String.concat "" (s :: l) = (s ++ String.concat "" l)%string).
  { intros s [|t r]; [cbn; rewrite append_nil_r; auto|reflexivity]. }
  induction l as [|[s|v a] l IH]; intros args E; cbn [flat_map fpieces args_of shown List.length] in *.
  - destruct args; [reflexivity|discriminate].
  - rewrite apply_literal, (IH _ E). cbn [fst snd]. rewrite K. auto.
  - destruct args as [|b args]; [discriminate|]. cbn [app apply_format]. rewrite (IH args) by (cbn in E; lia). rewrite K. auto.
Qed.
End Apply.
Lemma Fprintf_pieces {TD} (env : Env TD) w l args : verbs_ok l -> List.length args = List.length (args_of l) ->
  Fprintf env w (format_of l) args = String.concat "" (shown (fmt_arg env w) l args).
Proof. intros V E. unfold Fprintf. rewrite (parse_pieces l V), (apply_pieces _ l args E). auto. Qed.

(** ** Lines of a written file *)
Section Line.
Context {TD : Type}.
Variables (env : Env TD) (real : string -> string) (own : string) (h : list call) (fuel f : nat) (w : World TD) (F : GoFile)
  (s : string) (w1 : World TD).
Hypothesis P : prepared real own h w f F.
Hypothesis S : source env fuel f w = (Ok s, w1).
Lemma formatted_lines :
  exists F1, nth_error (files w1) f = Some F1 /\
  forall cb b n l args, part_of w f (IBlock cb) -> nth_error (blocks w) cb = Some b ->
    nth_error b n = Some (Line (format_of l) args) -> nth_error (argss w) args = Some (args_of l) -> verbs_ok l ->
    exists ts, Forall2 (piece_text real own (FImports F1) w) l ts /\
      codeElement_writeTo env w1 (Line (format_of l) args) = Ok (String.concat "" ts).
Proof.
  pose proof P as (EF & EI & OK & HON & US & NT & HR).
  destruct (prepared_references env real own h fuel f w F s w1 P S) as (F1 & E1 & REF). exists F1. split; auto.
  intros cb b n l args PB EB EN EA V.
  destruct (source_split _ _ _ _ _ _ S) as (Q & _).
  assert (IF : Inv (FImports F)) by (rewrite EI; apply run_new_Inv).
  pose proof (no_templates_ok env w f (fun r => right_name real r /\ usable_name r) NT) as TO.
  destruct (nth_after env fuel f w w1 F _ EF IF TO HR Q argss er_args args _ (fun _ => eq_refl) EA) as (l1 & EA1 & ER).
  assert (L : List.length l1 = List.length (args_of l)).
  { apply (f_equal (@List.length _)) in ER. unfold er_args in ER. rewrite !map_length in ER. congruence. }
  assert (BB : blocks w1 = blocks w).
  { change (blocks (skel w1) = blocks (skel w)). erewrite skel_after; eauto. }
  (* every argument *)
  assert (X : forall k a v, nth_error (args_of l) k = Some a -> exists a1, nth_error l1 k = Some a1 /\
              put_text real own (FImports F1) w v a (fmt_arg env w1 v a1)).
  { intros k a v K.
    assert (A : argument w cb n k = Some a). { unfold argument, obind. rewrite EB, EN, EA. auto. }
    assert (A1 : forall a1, argument w1 cb n k = Some a1 -> nth_error l1 k = Some a1).
    { unfold argument, obind. rewrite BB, EB, EN, EA1. auto. }
    destruct (arg_after env fuel f w w1 F _ EF IF TO HR Q cb n k a PB A) as (a1 & t & j & j' & B1 & AT & _ & TA & _).
    exists a1. split; auto. unfold put_text. destruct a.
    all: try (intros r RF SV NS NM; destruct (REF cb n k _ r v PB A RF SV NS NM) as (a2 & B2 & WR);
              rewrite B2 in B1; injection B1 as <-; exact WR).
    - cbn in AT. injection AT as <-. cbn in TA. injection TA as <- <-. split.
      + intros [->| ->]; reflexivity.
      + intros ->. apply Quote_value.
    - cbn in AT. injection AT as <-. cbn in TA. injection TA as <- <-. intros [->| ->]; apply decZ_number. }
  exists (shown (fmt_arg env w1) l l1). split.
  - clear EA EN V ER EA1. revert l1 L X. induction l as [|[t|v a] l IH]; intros l1 L X; cbn [shown].
    + constructor.
    + constructor; [reflexivity|]. apply IH; auto.
    + destruct l1 as [|a1 l1]; [discriminate|]. constructor.
      * destruct (X 0 a v eq_refl) as (a2 & [= <-] & PT). exact PT.
      * apply IH; [cbn in L; lia|]. intros k b0 v0 K. apply (X (Datatypes.S k) b0 v0 K).
  - unfold codeElement_writeTo, rd. rewrite EA1. cbn [rbind]. f_equal. apply Fprintf_pieces; auto.
Qed.
End Line.
(** the text of a quoted argument *)
Lemma quoted_argument {TD} (env : Env TD) w a x : arg_string env w a = Some (Ok x) ->
  literal_value (fmt_arg env w "q"%char a) = Some x.
Proof. intros H. unfold fmt_arg. rewrite H. cbn. apply Quote_value. Qed.
(** A signature has no String method. *)
Lemma signature_printed {TD} (env : Env TD) w s v :
  signature_value (fun t x => t <> TNil /\ typeNameToString (isPrint env) t = Ok x) s v ->
  fmt_arg env w "v"%char (ASignaturePtr s) = print_value v.
Proof.
  intros [as_ rs A B]. unfold fmt_arg, dump_signature. cbn [arg_string Ascii.eqb Bool.eqb orb].
  assert (X : forall l vs, Forall2 (fun a u => exists t, (ArgTy a <> TNil /\ typeNameToString (isPrint env) (ArgTy a) = Ok t) /\ u = arg_value a t) l vs ->
    dump_args env "v"%char l = print_value (FSlice vs)).
  { intros l vs H. unfold dump_args. cbn [print_value]. f_equal. f_equal. f_equal.
    induction H as [|a u l vs (t & [N E] & ->) H IH]; [reflexivity|]. cbn [map]. f_equal; auto.
    destruct (ArgTy a); try contradiction; rewrite E; cbn [caught arg_value print_value map join]; cbn [append]; rewrite !append_assoc; cbn [append]; reflexivity. }
  rewrite (X _ _ A), (X _ _ B). cbn [print_value map join]. cbn [append]. rewrite !append_assoc. cbn [append]. rewrite ?append_assoc. reflexivity.
Qed.
