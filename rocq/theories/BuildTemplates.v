(** Files that are built from a description with templates, and written. *)
From Verif Require Import Base BaseFacts GoPath Types SpecTypes TypesFacts Imports SpecImports ImportsProofs ImportsTheorems Conv World
  SpecGo SpecRender SpecFile SpecDecl FileTheorems SpecWorld SpecQualify QualifyTheorems SourceTheorems MeaningProofs
  SpecBuild BuildProofs BuildTypes BuildFiles BuildMeaning SpecTotal TotalProofs TotalTheorems BuildTotal
  Template SpecTemplate SpecFileTemplate FileTemplates OnceTheorems BuildOnce.

Section Built.
Variables (w : World (option val)) (m : list (list (part (option val)))) (f : nat) (d : filedesc (list (chunk (option val)))) (d' : filedesc nat).
Hypothesis R : represents w m.
Hypothesis FI : file_is w f d'.
Hypothesis BI : Forall2 (block_is m) (codes d) (codes d').
Hypothesis SB : same_but_code d d'.
Lemma built_template t : template_of w f t -> exists l tm data, In l (codes d) /\ In (PTemplate tm data) (flat_map chunk_parts l) /\
  nth_error (templs w) t = Some (tm, data).
Proof.
  intros (cb & b & P & NB & IN). pose proof (member w f d d' FI SB (IBlock cb) P) as IC. cbn in IC.
  destruct (Forall2_in_r _ _ _ _ BI IC) as (l & J & B).
  destruct (Forall2_in _ _ _ _ (block_parts w m cb b _ R NB B) IN) as (p & K & EP).
  destruct p as [|tm data]; [destruct EP|]. exists l, tm, data. auto.
Qed.
Lemma built_data v : template_data w f v -> described_data d v.
Proof.
  intros (t & tm & T & E). destruct (built_template t T) as (l & tm' & data & IL & IP & E'). exists l, tm'. split; auto.
  rewrite E in E'. injection E' as <- <-. exact IP.
Qed.
End Built.

Section Whole.
Variable implements : gty -> string -> bool.
Variable unsafe : bool.
Variables (isPrint : N -> bool) (verb : World (option val) -> ascii -> Arg -> string)
  (other : World (option val) -> string -> list Arg -> string)
  (texec : World (option val) -> nat -> option val -> res string).
Notation env := (template_env implements unsafe isPrint verb other texec).
Theorem template_built d w m :
  represents w m -> go_name (fdName d) -> whole_description d ->
  exists d' w1, build_file d w = (Ok (List.length (files w), d'), w1) /\ same_but_code d d' /\
    (whole_code w1 d ->
     (forall v, described_data d v -> typed implements (data v) /\
        readable unsafe (world_parent w1) true (data v) /\ storable unsafe (world_parent w1) true (data v)) ->
     exists w2 enough, qualify_file env enough (List.length (files w)) w1 = (Ok tt, w2) /\
      (templates_execute w2 (List.length (files w)) texec -> exists s,
       (forall fuel, enough <= fuel -> source env fuel (List.length (files w)) w1 = (Ok s, w2)) /\
       forall real g0,
       (forall r, In r (sym_requests (filedesc_symbols d)) -> right_name real r /\ usable_name r) ->
       (forall x r, code_mentions w1 d x -> In r (packages_of x) -> right_name real r /\ usable_name r) ->
       (forall v r, described_data d v -> In r (data_requests unsafe (world_parent w1) (data v)) -> right_name real r /\ usable_name r) ->
       filedesc_meaning (path_qualifier (fdPath d)) (block_text env w2) d' = Some g0 ->
       exists g, parse_file s = Some g /\ resolve_file real g = Some (mkGFile (GPackage g0) (GImports g) (GDecls g0)))).
Proof.
  intros R GN WD. destruct (build_file_ok d w m R GN) as (d' & w1 & m1 & E & _ & _ & R1 & _ & FI & BI & SB & IM).
  exists d', w1. split; [exact E|]. split; [exact SB|]. intros WC VS. set (f := List.length (files w)) in *.
  assert (FI' := FI). destruct FI' as (F & NF & _).
  assert (PD : good_data implements unsafe w1 f).
  { intros t tm v T N. assert (TD : template_data w1 f v) by (exists t, tm; auto).
    destruct (VS v (built_data w1 m1 f d d' R1 FI BI SB v TD)) as (A & _). split; [exact A|left].
    apply NoDup_count_occ. exact (built_once d w m f d' w1 R GN E). }
  assert (WH : whole_data unsafe w1 f).
  { split.
    - intros t T. destruct (built_template w1 m1 f d d' R1 FI BI SB t T) as (l & tm & x & _ & _ & ET). congruence.
    - intros v T. destruct (VS v (built_data w1 m1 f d d' R1 FI BI SB v T)) as (_ & A). auto. }
  assert (CO : complete w1 f) by (eapply built_complete; eauto).
  assert (NC : no_cycle w1 f) by (eapply built_no_cycle; eauto).
  set (enough := Nat.max (List.length (types w1)) (filedesc_depth d)).
  destruct (once_total implements unsafe isPrint verb other texec f w1 PD (fdPath d) [] F enough NF (IM F NF) CO WH NC) as (w2 & Q & H); [lia|].
  exists w2, enough. split; [exact Q|]. intros TX. destruct (H TX) as (s & S). exists s.
  split; [intros fuel LE; eapply source_more_fuel; eauto|].
  intros real g0 G1 G2 G3 M. assert (D : filedesc_depth d <= enough) by lia. rewrite (same_depth _ _ SB) in D.
  destruct (once_means implements unsafe isPrint verb other texec f w1 PD real (fdPath d) [] enough F s w2 g0 NF (IM F NF)) as (F1 & g & _ & PG & _ & RG); auto.
  - intros c [].
  - intros c [].
  - eapply built_unnamed; eauto.
  - intros r [FM|(v & T & I)].
    + destruct (built_mentions w1 m1 _ d d' R1 FI BI SB r FM) as [I|(x & CM & I)]; eauto.
    + eapply G3; eauto. eapply built_data; eauto.
  - apply (file_is_meaning _ _ w1 _ d' enough g0 F FI NF D M).
  - exists g. auto.
Qed.
End Whole.
