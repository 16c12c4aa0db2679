(** Proofs: the idiom of model.go:54-60, %s.Name with a package, exactly. *)
From Verif Require Import Base BaseFacts GoPath Types SpecTypes Imports SpecImports ImportsProofs ImportsTheorems Conv World
  SpecQualify QualifyProofs QualifyTheorems SourceProofs SourceTheorems QualifyExamples.

(** A name before a dot never means the file's own package. *)
Lemma own_unqualified real own H q : refers real own (ImportSpecs (run H (NewImportsFor own))) q own -> q = "".
Proof.
  unfold refers. destruct (String.eqb_spec q "") as [|N]; auto. intros R. exfalso.
  destruct (R own) as [_ B]. destruct (B eq_refl) as (s & IN & _ & E).
  destruct (self_import own H "") as (_ & _ & L & _). apply L. unfold listed. rewrite <- E at 1. apply in_map. exact IN.
Qed.
Lemma dot_longer name : name <> ("." ++ name)%string.
Proof. intros E. apply (f_equal String.length) in E. cbn in E. exact (Nat.neq_succ_diag_r _ E). Qed.

Section Prepared.
Context {TD : Type}.
Variables (env : Env TD) (real : string -> string) (own : string) (h : list call) (fuel f : nat) (w : World TD) (F : GoFile)
  (s : string) (w1 : World TD).
Hypothesis P : prepared real own h w f F.
Hypothesis S : source env fuel f w = (Ok s, w1).
Lemma prepared_idiom_exact :
  exists F1, nth_error (files w1) f = Some F1 /\
  forall cb n k a p name verb, part_of w f (IBlock cb) -> argument w cb n k = Some a -> refers_to w a = Some (RPackage p) ->
    verb = "s"%char \/ verb = "v"%char ->
    exists a1, argument w1 cb n k = Some a1 /\
      (written_symbol real own (ImportSpecs (FImports F1)) (mkSymbol p name) (fmt_arg env w1 verb a1 ++ "." ++ name)%string <->
       ImportPath p <> own) /\
      (ImportPath p = own -> fmt_arg env w1 verb a1 = "").
Proof.
  destruct (prepared_references env real own h fuel f w F s w1 P S) as (F1 & E1 & R). exists F1. split; auto.
  intros cb n k a p name verb PO A RF V.
  destruct (R cb n k a (RPackage p) verb PO A RF V) as (a1 & A1 & WR); try discriminate. cbn [written] in WR.
  exists a1. split; auto.
  assert (HP : has_package (mkSymbol p name) = true).
  { unfold has_package. apply negb_true_iff. apply not_true_iff_false. intros HP. apply andb_true_iff in HP as [P1 P2].
    cbn in P1, P2. apply String.eqb_eq in P1, P2. destruct p as [pp pn]. cbn in P1, P2. subst.
    destruct P as (_ & _ & _ & _ & _ & _ & HM). destruct (HM ("", "")) as [_ U]; [|vm_compute in U; discriminate].
    eapply fm_arg; [exact PO|exact A|exact RF|left; reflexivity]. }
  destruct P as (EF & EI & OK & HON & US & NT & HR). destruct (source_split _ _ _ _ _ _ S) as (Q & _).
  destruct (history_after env real own h fuel f w w1 F EF EI OK HON US (no_templates_ok _ _ _ _ NT) HR Q) as (H & F2 & E2 & EI2 & _ & EH & _).
  assert (F2 = F1) by congruence. subst F2.
  assert (OWN : forall q, refers real own (ImportSpecs (FImports F1)) q own -> q = "").
  { intros q. rewrite EI2, EH. apply own_unqualified. }
  split.
  - unfold written_symbol. rewrite HP. unfold sym_path. cbn [SymPackage SymName]. split.
    + intros (q & RQ & E) EO. rewrite EO in *. apply OWN in RQ. apply OWN in WR. rewrite RQ, WR in E. symmetry in E.
      exact (dot_longer name E).
    + intros N. exists (fmt_arg env w1 verb a1). split; auto.
      destruct (String.eqb_spec (fmt_arg env w1 verb a1) "") as [Z|]; auto.
      unfold refers in WR. rewrite Z in WR. cbn in WR. congruence.
  - intros EO. rewrite EO in WR. auto.
Qed.
End Prepared.
