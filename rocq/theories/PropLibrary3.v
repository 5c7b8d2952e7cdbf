(** * PropLibrary3: the order of definitions, spaces, and how cells look, in files that use a library (C82, C89, C93). *)
From Verif Require Import Base BaseProofs Csvp SourceCode SourceSpec Ast AstProofs AstParser Eval EvalSpec FormulaSpec Options CellParser CodeSectionSpec CompileSpec
  Sheet SheetSpec SheetProofs2 ModuleProofs3 Loader LoaderSpec PropCell PropSheet PropVariables PropLoader PropCache PropModules PropCompile SameSpec SameProofs SameLoad PropSame EditLoad PropEdit RenameSpec RenameProofs PropRename
  SpacingSpec SpacingProofs PropSpacing RestyleSpec RestyleProofs PropRestyle HistorySpec LibrarySpec PropLibrary2.
From Verif Require PropLibrary HistoryProofs PropHistory.
From Coq Require Import Permutation.

(** ** C82 *)
Lemma merges_same ms : forall req sc sc' r, same_scope sc sc' -> merge_scopes ms req sc = Some r -> exists r', merge_scopes ms req sc' = Some r' /\ same_scope r r'.
Proof.
  induction req as [|i req IH]; intros sc sc' r S M; cbn [merge_scopes] in *; [injection M as <-; eauto|]. destruct (passoc i ms) as [d|]; [|discriminate M].
  refine (IH _ _ r _ M). destruct S as [S1 S2]. unfold scope_merge. split; intro x.
  - rewrite !(proj1 (scope_merge_spec _ _ _ _)), S1. reflexivity.
  - destruct (scope_merge_spec d (exports d) sc x) as (_ & -> & _). destruct (scope_merge_spec d (exports d) sc' x) as (_ & -> & _). rewrite S2. reflexivity.
Qed.
Theorem C82_library : forall E0 F0 Lib E F F' use_cache kvs args name l l' rows p p' q r G r' G',
  (forall a, is_order (ev_order (e_sheet E) a)) -> parse_key_values (co_oracle (e_co E)) kvs [] = Ok args ->
  Forall (item_ok (co_oracle (e_co E))) l -> uses_first l -> uses_first l' -> filter is_use l' = filter is_use l ->
  Permutation l l' -> NoDup (map item_key (definitions l)) ->
  Forall (fun i => file_line (item_text i)) l -> Forall file_line rows ->
  main_with_library E0 F0 Lib E F name (file_of l rows) p -> main_with_library E0 F0 Lib E F' name (file_of l' rows) p' -> linked E0 F0 p q ->
  compiles E use_cache args name F (r, G) -> compiles E use_cache args name F' (r', G') -> same_result module_sheet r r'.
Proof.
  intros E0 F0 Lib E F F' uc kvs args name l l' rows p p' q r G r' G' Or K Hok Hu Hu' Fu Pm Nd Hl Hr M M' Lk C C'.
  assert (Hok' : Forall (item_ok (co_oracle (e_co E))) l') by (eapply Permutation_Forall; eassumption).
  assert (Hl' : Forall (fun i => file_line (item_text i)) l') by (eapply Permutation_Forall; eassumption).
  pose proof (main_loads _ _ _ _ _ _ _ _ M) as Ld. pose proof (main_loads _ _ _ _ _ _ _ _ M') as Ld'.
  destruct (load_file _ _ _ _ Hok Hu Hl Hr Ld) as [Sc [Rq _]]. destruct (load_file_again _ _ _ _ _ Hok Hu Hl Hr Hok' Hu' Hl' Ld) as [p2 [Ld2 [Sc' [Rq' Al]]]]. rewrite Ld' in Ld2. injection Ld2 as <-.
  assert (Md : forall k, concat (map item_modules k) = concat (map item_modules (filter is_use k))).
  { clear. induction k as [|i k IH]; [reflexivity|]. destruct i; cbn [map concat filter is_use item_modules app]; rewrite IH; reflexivity. }
  assert (Req : pr_required p' = pr_required p) by (rewrite Rq, Rq', (Md l), (Md l'), Fu; reflexivity).
  assert (Ua : NoDup (map fst args)) by (eapply key_values_unique; [|exact K]; constructor).
  assert (Ss : same_scope (pr_scope p) (pr_scope p')) by (rewrite Sc, Sc'; apply items_permuted; assumption).
  pose proof Lk as (Qs & Qr & ms & Hm & Mg). destruct (merges_same ms _ _ _ _ Ss Mg) as (sc' & Mg' & S1 & S2).
  set (q' := {| pr_scope := sc'; pr_sheet := pr_sheet p'; pr_required := pr_required p' |}).
  assert (Lk' : linked E0 F0 p' q') by (split; [reflexivity|]; split; [reflexivity|]; exists ms; cbn [q' pr_scope]; rewrite Req; auto).
  pose proof (PropLibrary.linked_unique _ _ _ _ Lk (load_source_unique _ _ _ Ld)) as [_ U]. pose proof (PropLibrary.linked_unique _ _ _ _ Lk' (load_source_unique _ _ _ Ld')) as [_ U'].
  pose proof (main_run _ _ _ _ _ _ _ _ _ _ _ _ _ M Lk C) as X. pose proof (main_run _ _ _ _ _ _ _ _ _ _ _ _ _ M' Lk' C') as X'.
  assert (S : same_result pr_sheet (main_eval (e_sheet E) (e_sched E) q args) (main_eval (e_sheet E) (e_sched E) q' args)).
  { apply same_programs; auto. - cbn [q' pr_sheet]. rewrite Qs. exact Al. - split; intros; cbn [q' pr_scope]; auto. }
  destruct (main_eval (e_sheet E) (e_sched E) q args) as [v|e1| |], (main_eval (e_sheet E) (e_sched E) q' args) as [v'|e'| |]; cbn [same_result] in S; try contradiction S.
  - destruct X as (m & -> & <-), X' as (m' & -> & <-). exact S.
  - subst. reflexivity.
  - subst. exact I.
  - subst. exact I.
Qed.
Print Assumptions C82_library.

(** ** C89 *)
Theorem C89_library : forall E0 F0 Lib E F F' use_cache kvs args name text text' p p' q r G r' G',
  parse_key_values (co_oracle (e_co E)) kvs [] = Ok args -> respaced_file (o_unicode (co_oracle (e_co E))) text text' ->
  main_with_library E0 F0 Lib E F name text p -> main_with_library E0 F0 Lib E F' name text' p' -> linked E0 F0 p q ->
  compiles E use_cache args name F (r, G) -> compiles E use_cache args name F' (r', G') -> same_output r r'.
Proof.
  intros E0 F0 Lib E F F' uc kvs args name text text' p p' q r G r' G' K Hf M M' Lk C C'.
  pose proof (main_loads _ _ _ _ _ _ _ _ M) as Ld. pose proof (main_loads _ _ _ _ _ _ _ _ M') as Ld'.
  destruct (load_respaced (e_co E) text text' p Hf Ld) as [p2 [Ld2 [Sc [Rq Rs]]]]. rewrite Ld' in Ld2. injection Ld2 as <-.
  pose proof (PropLibrary.linked_unique _ _ _ _ Lk (load_source_unique _ _ _ Ld)) as [_ U]. assert (Ua : NoDup (map fst args)) by (eapply key_values_unique; [|exact K]; constructor).
  pose proof (main_run _ _ _ _ _ _ _ _ _ _ _ _ _ M Lk C) as X. pose proof (main_run _ _ _ _ _ _ _ _ _ _ _ _ _ M' (linked_sheet _ _ _ _ _ Lk Sc Rq) C') as X'.
  destruct Lk as (Qs & _). rewrite <- Qs in Rs. set (q' := {| pr_scope := pr_scope q; pr_sheet := pr_sheet p'; pr_required := pr_required p' |}) in *.
  assert (Q : rmap (ren_sheet same_names) (fun e => e) (omap pr_sheet (main_eval (e_sheet E) (e_sched E) q' args)) = rmap (ren_sheet same_names) (ren_error same_names) (omap pr_sheet (main_eval (e_sheet E) (e_sched E) q args))).
  { apply (main_renamed same_names (fun x => x) (fun x => x)); auto; try reflexivity.
    - split; [reflexivity|]. intro a. split; intros k l; cbn [same_names rn_value rn_fn]; rewrite !map_id; reflexivity.
    - split; [apply definitions_same|]. split; [apply definitions_same|]. exact Rs.
    - apply definitions_same. }
  destruct (main_eval (e_sheet E) (e_sched E) q args) as [o|e1| |], (main_eval (e_sheet E) (e_sched E) q' args) as [o'|e'| |]; cbn [rmap omap] in Q; try discriminate Q.
  - destruct X as (m & -> & <-), X' as (m' & -> & <-). apply renamed_output. apply sheets_renamed. unfold module_sheet. congruence.
  - subst. cbn [same_output]. rewrite error_same in Q. congruence.
  - subst. exact I.
  - subst. exact I.
Qed.
Print Assumptions C89_library.

(** ** C93 *)
Theorem C93_library : forall E0 F0 Lib E F F' use_cache args name text text' p p' q r G r' G',
  restyled_file (e_co E) text text' ->
  main_with_library E0 F0 Lib E F name text p -> main_with_library E0 F0 Lib E F' name text' p' -> linked E0 F0 p q ->
  compiles E use_cache args name F (r, G) -> compiles E use_cache args name F' (r', G') -> same_values r r'.
Proof.
  intros E0 F0 Lib E F F' uc args name text text' p p' q r G r' G' Rf M M' Lk C C'.
  pose proof (main_loads _ _ _ _ _ _ _ _ M) as Ld. pose proof (main_loads _ _ _ _ _ _ _ _ M') as Ld'.
  destruct (load_restyled _ _ _ _ Rf Ld) as [p2 [Ld2 [Sc [Rq Rs]]]]. rewrite Ld' in Ld2. injection Ld2 as <-.
  pose proof (main_run _ _ _ _ _ _ _ _ _ _ _ _ _ M Lk C) as X. pose proof (main_run _ _ _ _ _ _ _ _ _ _ _ _ _ M' (linked_sheet _ _ _ _ _ Lk Sc Rq) C') as X'.
  rewrite (linked_eta _ _ _ _ Lk) in X. cbn [pr_scope] in X'. rewrite Rq in X'.
  pose proof (restyled_eval (e_sheet E) (e_sched E) (pr_scope q) (pr_required p) _ _ args Rs) as H.
  destruct (main_eval (e_sheet E) (e_sched E) {| pr_scope := pr_scope q; pr_sheet := pr_sheet p; pr_required := pr_required p |} args) as [o|e1| |],
    (main_eval (e_sheet E) (e_sched E) {| pr_scope := pr_scope q; pr_sheet := pr_sheet p'; pr_required := pr_required p |} args) as [o'|e'| |]; cbn [omap] in H; try discriminate H.
  - destruct X as (m & -> & <-), X' as (m' & -> & <-). cbn [same_values]. apply bare_sheet_spec. unfold module_sheet. congruence.
  - subst. cbn [same_values]. congruence.
  - subst. exact I.
  - subst. exact I.
Qed.
Print Assumptions C93_library.

(** ** The conditions are met *)
Import PropHistory PropLibrary.
Definition ex_in_order : list item := [ex_uses_lib; IVar (lit "a") (NInfix (NRef (lit "b")) (lit "+") (NInt false None 1)); IVar (lit "b") (NInfix (NRef (lit "fee")) (lit "*") (NInt false None 2))].
Definition ex_turned : list item := [ex_uses_lib; IVar (lit "b") (NInfix (NRef (lit "fee")) (lit "*") (NInt false None 2)); IVar (lit "a") (NInfix (NRef (lit "b")) (lit "+") (NInt false None 1))].
Definition ex_ab : list str := [lit "=a,=b"].
Lemma ex_order_ok l : In l [ex_in_order; ex_turned] ->
  main_with_library (ex_E 5) ex_split ex_library (ex_E 7) (ex_with (file_of l ex_ab)) (lit "main") (file_of l ex_ab) (ex_of (file_of l ex_ab)) /\ linked (ex_E 5) ex_split (ex_of (file_of l ex_ab)) (ex_joined (ex_of (file_of l ex_ab))).
Proof. intros [<-|[<-|[]]]; (split; [apply ex_with_library; vm_compute; reflexivity|apply ex_with_linked; [vm_compute; reflexivity|vm_compute; discriminate]]). Qed.
Example C82_library_nonvacuous :
  (Forall (item_ok (co_oracle (e_co (ex_E 7)))) ex_in_order /\ uses_first ex_in_order /\ uses_first ex_turned /\ filter is_use ex_turned = filter is_use ex_in_order
   /\ Permutation ex_in_order ex_turned /\ NoDup (map item_key (definitions ex_in_order)))
  /\ Forall (fun i => file_line (item_text i)) ex_in_order /\ Forall file_line ex_ab
  /\ (forall l, In l [ex_in_order; ex_turned] ->
       main_with_library (ex_E 5) ex_split ex_library (ex_E 7) (ex_with (file_of l ex_ab)) (lit "main") (file_of l ex_ab) (ex_of (file_of l ex_ab))
       /\ linked (ex_E 5) ex_split (ex_of (file_of l ex_ab)) (ex_joined (ex_of (file_of l ex_ab)))
       /\ exists G, yields (ex_E 7) true [] "main" (ex_with (file_of l ex_ab)) (Ok [[lit "=(((100 * 2) * 2) + 1)"; lit "=((100 * 2) * 2)"]]) G).
Proof.
  split; [|split; [|split]].
  - split; [repeat constructor; try (vm_compute; reflexivity); try discriminate; simpl; auto 10; vm_compute; discriminate|].
    split; [reflexivity|]. split; [reflexivity|]. split; [reflexivity|]. split; [apply perm_skip, perm_swap|].
    vm_compute. constructor; [|constructor; [|constructor]]; intros H; repeat destruct H as [H|H]; try discriminate H; destruct H.
  - repeat constructor; vm_compute; reflexivity.
  - repeat constructor; vm_compute; reflexivity.
  - intros l I. destruct (ex_order_ok l I) as [A B]. split; [exact A|]. split; [exact B|]. eexists. apply (ex_run_yields _ _ _ _ _ false split_order). destruct I as [<-|[<-|[]]]; vm_compute; reflexivity.
Qed.
Definition ex_spaced (s : string) : string := ex_top ++ s.
Lemma ex_spaced_ok t : In t ["=fee"; "= fee"; "![[fill=2 text=bold]][[var=x]]a,[[n='why' c=ff0000]]=rate + 1"; "![[fill=2]][[ha=left var=x]] a,=rate + 1"]%string ->
  main_with_library (ex_E 5) ex_split ex_library (ex_E 7) (ex_with (lit (ex_spaced t))) (lit "main") (lit (ex_spaced t)) (ex_of (lit (ex_spaced t))) /\ linked (ex_E 5) ex_split (ex_of (lit (ex_spaced t))) (ex_joined (ex_of (lit (ex_spaced t)))).
Proof. intros [<-|[<-|[<-|[<-|[]]]]]; (split; [apply ex_with_library; vm_compute; reflexivity|apply ex_with_linked; [vm_compute; reflexivity|vm_compute; discriminate]]). Qed.
Example C89_library_nonvacuous : respaced_file (o_unicode (co_oracle (e_co (ex_E 7)))) (lit (ex_spaced "=fee")) (lit (ex_spaced "= fee"))
  /\ forall t, In t ["=fee"; "= fee"]%string -> exists G, yields (ex_E 7) true [] "main" (ex_with (lit (ex_spaced t))) (Ok [[lit "=(100 * 2)"]]) G.
Proof.
  split.
  - unfold respaced_file. replace (code_section (source_code_new (lit (ex_spaced "=fee")))) with (Some (lit ("use lib" ++ nl ++ "rate := 2"))) by (vm_compute; reflexivity).
    replace (code_section (source_code_new (lit (ex_spaced "= fee")))) with (Some (lit ("use lib" ++ nl ++ "rate := 2"))) by (vm_compute; reflexivity).
    split; [left; reflexivity|]. exists (ex_fields (ex_spaced "=fee")), (ex_fields (ex_spaced "= fee")). split; [vm_compute; reflexivity|]. split; [vm_compute; reflexivity|].
    assert (V : forall A (P : A -> A -> Prop) a b, P a b -> forall l l', l = [a] -> l' = [b] -> Forall2 P l l') by (intros; subst; constructor; [assumption|constructor]).
    eapply V; [|vm_compute; reflexivity|vm_compute; reflexivity]. constructor; [|constructor]. right. split; [reflexivity|].
    exists [WName (lit "fee")], (lit "fee"), (lit " fee"). split; [reflexivity|]. split; [reflexivity|]. split; [a_text (@nil N) [(WName (lit "fee"), @nil N)] (@nil N)|a_text (lit " ") [(WName (lit "fee"), @nil N)] (@nil N)].
  - intros t [<-|[<-|[]]]; eexists; apply (ex_run_yields _ _ _ _ _ false split_order); vm_compute; reflexivity.
Qed.
Definition ex_bold : string := ex_spaced "![[fill=2 text=bold]][[var=x]]a,[[n='why' c=ff0000]]=rate + 1".
Definition ex_plain_cells : string := ex_spaced "![[fill=2]][[ha=left var=x]] a,=rate + 1".
Example C93_library_nonvacuous : restyled_file (e_co (ex_E 7)) (lit ex_bold) (lit ex_plain_cells)
  /\ forall t, In t [ex_bold; ex_plain_cells] -> exists G, yields (ex_E 7) true [] "main" (ex_with (lit t)) (Ok [[lit "a"; lit "=(2 + 1)"]; [lit "a"; lit "=(2 + 1)"]]) G.
Proof.
  split.
  - pose proof ex_restyled as [_ R]. split; [vm_compute; reflexivity|].
    assert (Q : fields_of (lit ex_bold) = fields_of (lit ex_styled)) by (vm_compute; reflexivity). assert (Q' : fields_of (lit ex_plain_cells) = fields_of (lit ex_unstyled)) by (vm_compute; reflexivity).
    rewrite Q, Q'. exact R.
  - intros t [<-|[<-|[]]]; eexists; apply (ex_run_yields _ _ _ _ _ false split_order); vm_compute; reflexivity.
Qed.
