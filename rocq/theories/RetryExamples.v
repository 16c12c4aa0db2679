(** Files with templates, for the example of C113. *)
From Verif Require Import Base BaseFacts GoPath Types SpecTypes Imports SpecImports SpecGo SpecRender Conv World SpecFile SpecDecl SpecWorld
  Template SpecTemplate PropTemplate SpecFileTemplate FileTemplateExamples
  SpecFormat SpecCode SpecAppend SpecOrder SpecQualify SpecShare SpecLocal SpecLocalData SpecRetry LocalTemplates QualifyExamples LocalTemplateExamples.

Lemma sample_free : typed imp (data sample) /\ without_specs sample /\ plain_pointers (data sample).
Proof. split; [exact sample_typed|]. cbn. intuition. Qed.
Lemma tpl_other_data : free_data imp tplOther 0.
Proof.
  intros d (t & tm & T & E). apply tpl_of in T. subst t.
  assert (X : nth_error (templs tplOther) 0 = Some (0, Some sample)) by check. rewrite X in E.
  apply (f_equal (fun o => match o with Some (_, Some x) => x | _ => d end)) in E. cbv beta iota in E. rewrite <- E. exact sample_free.
Qed.
Lemma tpl_other_block : part_of tplOther 0 (IBlock 0).
Proof.
  assert (E : nth_error (funcs tplOther) 0 = Some (nth 0 (funcs tplOther) (mkFunc "" "" None (mkSig [] [] false) 0 None))) by check.
  apply (po_body tplOther 0 0 _) in E; [exact E|]. eapply po_func; [vm_compute; reflexivity|cbn; auto].
Qed.
Lemma tpl_other_template : template_of tplOther 0 0.
Proof. eexists 0, _. split; [exact tpl_other_block|]. split; [vm_compute; reflexivity|]. cbn. auto. Qed.
