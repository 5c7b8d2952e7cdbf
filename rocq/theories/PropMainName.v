(** * PropMainName: what the source file is called, for programs with imports (C90). *)
From Verif Require Import Base BaseProofs Csvp SourceCode Ast AstParser Eval Options CellParser PropCell Sheet Loader LoaderSpec LoaderProofs LoaderProofs2 LoaderProofs3 PropLoader PropCache PropModules HistorySpec HistoryProofs PropHistory PropMainFile.

(** Two files with the same text in a directory with a library that the program uses, whatever was compiled in the directory before: both compile to the same
    output or give the same error, with or without the cache, however the threads run. *)
Theorem C90_importing_partial : forall E0 F0 Lib F E use_cache use_cache' kv name name' text t t' r G r' G',
  library E0 F0 Lib -> history E0 F0 Lib F -> same_compiler E0 E -> in_the_past E F Lib -> (forall f, e_writable E f = true) ->
  sources F [name] = Some (text, t) -> uses_library E F Lib name -> no_object F [name] \/ older_object F [name] ->
  sources F [name'] = Some (text, t') -> uses_library E F Lib name' -> no_object F [name'] \/ older_object F [name'] ->
  compiles E use_cache kv name F (r, G) -> compiles E use_cache' kv name' F (r', G') ->
  same_but_name r r'.
Proof.
  intros E0 F0 Lib F E uc uc' kv name name' text t t' r G r' G' L H C Past W S1 U1 O1 S2 U2 O2 K K'. destruct (history_faithful E0 F0 Lib L F H) as [Ff Mf].
  destruct (compiles_spec E0 F0 Lib L _ _ _ _ _ _ _ C Ff Mf Past U1 K) as [_ [_ [[f [_ X]]|X]]]; [rewrite W in X; discriminate|].
  destruct (compiles_spec E0 F0 Lib L _ _ _ _ _ _ _ C Ff Mf Past U2 K') as [_ [_ [[f [_ X']]|X']]]; [rewrite W in X'; discriminate|].
  rewrite main_not_clean in X by exact O1. rewrite main_not_clean in X' by exact O2.
  destruct (load_from_source E F [name] [name]) as [main|e| |] eqn:Lm; destruct (load_from_source E F [name'] [name']) as [main'|e'| |] eqn:Lm'; unfold load_from_source in Lm, Lm'; rewrite S1 in Lm; rewrite S2 in Lm';
    destruct (load_source (e_co E) text) as [pr|le| |] eqn:Q; try discriminate Lm; try discriminate Lm'.
  - injection Lm as <-. injection Lm' as <-. destruct X as [sc [A ->]]. destruct X' as [sc' [A' ->]].
    destruct U1 as [_ [_ U1]]. assert (Nd : NoDup (pr_required pr)).
    { destruct (U1 {| m_version := e_version E; m_path := [name]; m_program := pr; m_file := [name]; m_dirty := false; m_needs_eval := true |}) as [Nd _]; [|exact Nd]. unfold load_from_source. rewrite S1, Q. reflexivity. }
    pose proof (HistoryProofs.main_scope_unique E0 F0 Lib L {| m_version := e_version E; m_path := [name]; m_program := pr; m_file := [name]; m_dirty := false; m_needs_eval := true |} sc sc' Nd A A') as <-. unfold HistoryProofs.outcome_of, finish. cbn [with_flags with_scope with_program m_needs_eval m_program m_dirty fst].
    destruct (main_eval _ _ _ kv) as [p|e| |]; cbn [fst same_but_name with_flags with_program m_program]; auto.
  - injection Lm as <-. injection Lm' as <-. subst. reflexivity.
  - subst. exact I.
  - subst. exact I.
Qed.
Print Assumptions C90_importing_partial.

(** a copy of the main file in the directory of C79: both give the same *)
Definition ex_copied : fs := with_source ex_touched [lit "copy"] (Some (lit ("use lib" ++ nl ++ "---" ++ nl ++ "=fee"), 3)).
Example C90_importing_nonvacuous :
  history (ex_E 5) ex_split ex_library ex_copied /\ same_compiler (ex_E 5) (ex_E 7) /\ in_the_past (ex_E 7) ex_copied ex_library
  /\ uses_library (ex_E 7) ex_copied ex_library (lit "main") /\ older_object ex_copied [lit "main"]
  /\ uses_library (ex_E 7) ex_copied ex_library (lit "copy") /\ no_object ex_copied [lit "copy"]
  /\ option_map fst (sources ex_copied [lit "main"]) = option_map fst (sources ex_copied [lit "copy"])
  /\ (exists G, yields (ex_E 7) true [] "main" ex_copied (Ok [[lit "=(100 * 2)"]]) G) /\ (exists G, yields (ex_E 7) true [] "copy" ex_copied (Ok [[lit "=(100 * 2)"]]) G).
Proof.
  destruct C79_nonvacuous as (_ & H & C & _ & _ & _ & _). split; [|split; [exact C|split; [|split; [|split; [|split; [|split; [|split; [|split]]]]]]]].
  - apply h_edit; [exact H|]. intros p [<- [Q|[Q|[]]]]; discriminate Q.
  - apply ex_outside; [intros f [<-|[<-|[]]]; vm_compute; reflexivity|]. apply Nat.leb_le. reflexivity.
  - apply ex_uses; [intros f [<-|[<-|[]]]; vm_compute; reflexivity|vm_compute; reflexivity].
  - vm_compute. split; [reflexivity|]. do 2 eexists. split; [reflexivity|]. apply Nat.leb_le. reflexivity.
  - split; [intros f [_ [Q|[Q|[]]]]; discriminate Q|]. split; [intros p [<- [Q|[Q|[]]]]; discriminate Q|]. intros m Lm.
    assert (R : match load_from_source (ex_E 7) ex_copied [lit "copy"] [lit "copy"] with Ok m => m_requires m | _ => [] end = [[lit "lib"]]) by (vm_compute; reflexivity).
    rewrite Lm in R. rewrite R. split; [constructor; [intros []|constructor]|]. intros q [<-|[]]. split; [reflexivity|left; reflexivity].
  - vm_compute. exact I.
  - vm_compute. reflexivity.
  - eexists; (apply (ex_run_yields _ _ _ _ _ false split_order); vm_compute; reflexivity).
  - eexists; (apply (ex_run_yields _ _ _ _ _ false [["base"]; ["lib"]; ["copy"]]%string); vm_compute; reflexivity).
Qed.
