(** * PropHistory: C56 and C32 over all histories of compilations and edits. *)
From Verif Require Import Base BaseProofs Csvp Ast AstProofs Eval EvalSpec EvalRounds Options CellParser AstParser Sheet SheetProofs2 ModuleProofs Loader LoaderSpec LoaderProofs LoaderProofs2 LoaderProofs3 PropLoader PropCache PropModules HistorySpec HistoryProofs.

(** ** When definitions are done *)
(** A module none of whose definitions mentions a variable or calls a function of the module is done: evaluating it
    changes nothing. *)
Definition settled (sc : scope) : Prop :=
  (forall k n, assoc k (variables sc) = Some n -> nothing_known sc n) /\ (forall k n, assoc k (functions sc) = Some n -> nothing_known sc n).
Lemma insert_again {A} k (v : A) l : assoc k l = Some v -> assoc_insert k v l = l.
Proof.
  induction l as [|[x w] l IH]; cbn [assoc assoc_insert]; [discriminate|]. destruct (str_eqb_spec k x) as [->|N]; [intros [= ->]; reflexivity|]. intro H. rewrite IH by exact H. reflexivity.
Qed.
Lemma settled_once fuel ord vars : forall ks sc, 0 < fuel -> (forall k n, assoc k (if vars : bool then variables sc else functions sc) = Some n -> nothing_known sc n) ->
  eval_definitions fuel ord vars ks (if vars : bool then variables sc else functions sc) sc = Ok sc.
Proof.
  intros ks sc L N. induction ks as [|k ks IH]; cbn [eval_definitions]; [reflexivity|]. destruct (assoc k (if vars : bool then variables sc else functions sc)) as [n|] eqn:A; [|exact IH].
  assert (Ev : ast_eval fuel (ord k) sc None n = Ok n). { unfold ast_eval. destruct fuel as [|f]; [lia|]. cbn [eval_loop]. cbv zeta. rewrite (proj2 (empty_refs sc n) (N _ _ A)). reflexivity. }
  rewrite Ev. cbn [bind]. destruct vars; cbn [variables functions]; rewrite (insert_again _ _ _ A); destruct sc; exact IH.
Qed.
Lemma settled_check sc : forallb (fun kn => refs_is_empty (extract_references sc (snd kn))) (variables sc ++ functions sc) = true -> settled sc.
Proof.
  intro H. rewrite forallb_app in H. apply andb_true_iff in H as [H1 H2]. rewrite forallb_forall in H1, H2.
  split; intros k n A; apply empty_refs; [apply (H1 (k, n))|apply (H2 (k, n))]; apply assoc_In, A.
Qed.
Theorem C56_settled : forall E p sc, 0 < e_fuel E -> settled sc -> eval_scope E p sc = Ok sc.
Proof.
  intros E p sc L [A B]. unfold eval_scope. rewrite (settled_once _ _ true) by assumption. cbn [bind]. apply (settled_once _ _ false); assumption.
Qed.
Print Assumptions C56_settled.

(** ** C79, C56 and C32 *)
(** Programs that share a library: after any history of compilations, killed compilations and edits of the programs, one whose object file is older than its source (or
    missing) compiles to exactly what it compiles to in a directory without any object files. (Edits of the library
    itself and library modules compiled on their own are not covered: for them it is false, C32_*_refuted, C56_compiled_before_refuted.) *)
Theorem C79_library_history : forall E0 F0 Lib F E use_cache use_cache' kv name r G r' G',
  library E0 F0 Lib -> history E0 F0 Lib F ->
  same_compiler E0 E -> in_the_past E F Lib -> uses_library E F Lib name -> (forall f, e_writable E f = true) ->
  no_object F [name] \/ older_object F [name] ->
  compiles E use_cache kv name F (r, G) -> compiles E use_cache' kv name (without_objects F) (r', G') ->
  r = r'.
Proof.
  intros E0 F0 Lib F E uc uc' kv name r G r' G' L H C Past U W Hm K K'. destruct (history_faithful E0 F0 Lib L F H) as [Ff Mf].
  assert (Ff' : faithful E0 F0 Lib (without_objects F)) by (split; [apply Ff|discriminate]).
  assert (Mf' : mains Lib (without_objects F)) by discriminate.
  assert (M : load_from_cache_from_filename E F [name] [name] = load_from_cache_from_filename E (without_objects F) [name] [name]).
  { rewrite !main_not_clean by (try assumption; left; exact I). apply from_source_same. reflexivity. }
  destruct (compiles_spec E0 F0 Lib L _ _ _ _ _ _ _ C Ff Mf Past U K) as [_ [_ [[f [_ X]]|X]]]; [rewrite W in X; discriminate|].
  destruct (compiles_spec E0 F0 Lib L _ _ _ _ _ _ _ C Ff' Mf' Past U K') as [_ [_ [[f [_ X']]|X']]]; [rewrite W in X'; discriminate|].
  rewrite <- M in X'. destruct (load_from_cache_from_filename E F [name] [name]) as [main|e| |] eqn:Lm; try congruence.
  destruct X as [sc [A ->]]. destruct X' as [sc' [A' ->]]. assert (Nd : NoDup (m_requires main)) by (eapply main_is_main in Lm as [[nm [_ [_ [_ [_ [Nd _]]]]]] _]; eassumption).
  rewrite (main_scope_unique E0 F0 Lib L main sc sc' Nd A A'). unfold outcome_of, finish. destruct (m_needs_eval _); [|reflexivity]. destruct (main_eval _ _ _ _); reflexivity.
Qed.
Print Assumptions C79_library_history.

(** main imports lib, which imports base; main is compiled, then edited *)
Definition ex_library (p : module_path) (f : file) : Prop := f = p /\ In p [[lit "lib"]; [lit "base"]].
Definition ex_meaning (p : module_path) : scope := match meaning 3 (ex_E 5) ex_split p p with Some sc => sc | None => empty_scope end.
Lemma ex_is_library : library (ex_E 5) ex_split ex_library.
Proof.
  split; [intros p f f' [-> _] [-> _]; reflexivity|]. split; [intros p p' f [-> _] [-> _]; reflexivity|]. intros p f [-> I]. split.
  - exists 3, (ex_meaning p). destruct I as [<-|[<-|[]]]; (split; [|apply C56_settled; [vm_compute; apply Nat.leb_le; reflexivity|apply settled_check]]); vm_compute; reflexivity.
  - intros m q Lm Iq. assert (R : In q match load_from_source (ex_E 5) ex_split p p with Ok m => m_requires m | _ => [] end) by (rewrite Lm; exact Iq). clear Lm Iq m.
    destruct I as [<-|[<-|[]]]; vm_compute in R; [destruct R as [<-|[]]|destruct R]. split; [reflexivity|right; left; reflexivity].
Qed.
Definition ex_used : fs := files_after (ex_run1 ex_split split_order) ex_split.
Definition ex_touched : fs := with_source ex_used [lit "main"] (Some (lit ("use lib" ++ nl ++ "---" ++ nl ++ "=fee"), 6)).
Lemma ex_outside F E : (forall f : file, In f [[lit "lib"]; [lit "base"]] -> sources F f = sources ex_split f) -> (forall f, ~ ex_library [lit "main"] f) /\ (forall p, ~ ex_library p [lit "main"]) /\ (1 <= e_now E -> in_the_past E F ex_library).
Proof.
  intro S. split; [intros f [_ [H|[H|[]]]]; discriminate H|]. split; [intros p [<- [H|[H|[]]]]; discriminate H|]. intros T p f text t [-> I] Q. rewrite (S p I) in Q. destruct I as [<-|[<-|[]]]; vm_compute in Q; injection Q as _ <-; exact T.
Qed.
Lemma ex_uses F E : (forall f : file, In f [[lit "lib"]; [lit "base"]] -> sources F f = sources ex_split f) ->
  match load_from_source E F [lit "main"] [lit "main"] with Ok m => m_requires m | _ => [] end = [[lit "lib"]] -> uses_library E F ex_library (lit "main").
Proof.
  intros S R. destruct (ex_outside F E S) as [A [B _]]. split; [exact A|]. split; [exact B|]. intros m Lm. rewrite Lm in R. rewrite R. split; [constructor; [intros []|constructor]|]. intros q [<-|[]]. split; [reflexivity|left; reflexivity].
Qed.
Example C79_nonvacuous :
  library (ex_E 5) ex_split ex_library /\ history (ex_E 5) ex_split ex_library ex_touched
  /\ same_compiler (ex_E 5) (ex_E 7) /\ in_the_past (ex_E 7) ex_touched ex_library /\ uses_library (ex_E 7) ex_touched ex_library (lit "main")
  /\ older_object ex_touched [lit "main"] /\ (forall f, In f [[lit "lib"]; [lit "base"]] -> ~ no_object ex_touched f)
  /\ (exists G, yields (ex_E 7) true [] "main" ex_touched (Ok [[lit "=(100 * 2)"]]) G)
  /\ (exists G, yields (ex_E 7) true [] "main" (without_objects ex_touched) (Ok [[lit "=(100 * 2)"]]) G).
Proof.
  split; [exact ex_is_library|]. split; [|split; [repeat split|split; [|split; [|split; [|split]]]]].
  - apply h_edit; [|intros p [<- [H|[H|[]]]]; discriminate H]. eapply h_compile with (E := ex_E 5) (use_cache := true) (kv := []) (name := lit "main"); [apply h_start; reflexivity|repeat split|..].
    + apply ex_outside; [reflexivity|]. apply Nat.leb_le. reflexivity.
    + apply ex_uses; [reflexivity|vm_compute; reflexivity].
    + apply ex_compiles. vm_compute. reflexivity.
  - apply ex_outside; [intros f [<-|[<-|[]]]; vm_compute; reflexivity|]. apply Nat.leb_le. reflexivity.
  - apply ex_uses; [intros f [<-|[<-|[]]]; vm_compute; reflexivity|vm_compute; reflexivity].
  - vm_compute. split; [reflexivity|]. do 2 eexists. split; [reflexivity|]. apply Nat.leb_le. reflexivity.
  - intros f [<-|[<-|[]]]; vm_compute; auto.
  - split; eexists; (apply (ex_run_yields _ _ _ _ _ false split_order); vm_compute; reflexivity).
Qed.
(** a first compilation killed after the object of base was written, while that of lib was being written *)
Definition ex_killed : fs := with_object (snd (eval_dependencies (ex_E 5) true [[lit "base"]] (loaded (fst (ex_end ex_split false))) ex_split)) [lit "lib"] (Some (OGarbage, 5)).
Example C79_killed_nonvacuous : history (ex_E 5) ex_split ex_library ex_killed /\ ~ no_object ex_killed [lit "base"] /\ objects ex_killed [lit "lib"] = Some (OGarbage, 5) /\ no_object ex_killed [lit "main"]
  /\ (exists G, yields (ex_E 7) true [] "main" ex_killed (Ok [[lit "=((100 * 2) + 1)"; lit "text"; lit "=100"]]) G).
Proof.
  split; [|split; [vm_compute; auto|split; [vm_compute; reflexivity|split; [vm_compute; exact I|eexists; apply (ex_run_yields _ _ _ _ _ false split_order); vm_compute; reflexivity]]]].
  apply h_lose; [|discriminate]. eapply h_killed with (E := ex_E 5) (name := lit "main") (main := ex_main ex_split) (sh := fst (ex_end ex_split false)) (order := [[lit "base"]]) (rest := [[lit "lib"]; [lit "main"]]);
    [apply h_start; reflexivity|repeat split|..].
  - apply ex_outside; [reflexivity|]. apply Nat.leb_le. reflexivity.
  - apply ex_uses; [reflexivity|vm_compute; reflexivity].
  - vm_compute. reflexivity.
  - assert (H : snd (ex_end ex_split false) = TDone) by (vm_compute; reflexivity). split; [|reflexivity]. rewrite <- H, <- surjective_pairing. apply exec_steps.
  - apply order_ok_spec. vm_compute. reflexivity.
  - apply surjective_pairing.
Qed.
(** C56 refuted when evaluating once more changes something: a definition that refers to itself is expanded again each time the program is compiled, so
    the sheet depends on how often it was compiled before *)
Definition ex_self : fs := ex_files [(["main"], "use lib" ++ nl ++ "---" ++ nl ++ "=x", 1); (["lib"], "x := x + 1" ++ nl ++ "---" ++ nl, 1)]%string.
Definition ex_self_after : fs := edited (files_after (ex_run (ex_E 5) true [] "main" ex_self false order2) ex_self) ["main"]%string ("use lib" ++ nl ++ "---" ++ nl ++ "=x,")%string 6.
Theorem C56_self_reference_refuted : older_object ex_self_after [lit "main"]
  /\ yields (ex_E 5) true [] "main" ex_self (Ok [[lit "=((x + 1) + 1)"]]) (files_after (ex_run (ex_E 5) true [] "main" ex_self false order2) ex_self)
  /\ (exists G, yields (ex_E 7) true [] "main" ex_self_after (Ok [[lit "=((((x + 1) + 1) + 1) + 1)"]]) G)
  /\ (exists G, yields (ex_E 7) true [] "main" (without_objects ex_self_after) (Ok [[lit "=((x + 1) + 1)"]]) G).
Proof.
  split; [vm_compute; split; [reflexivity|]; do 2 eexists; split; [reflexivity|]; apply Nat.leb_le; reflexivity|].
  split; [apply (ex_run_yields _ _ _ _ _ false order2); vm_compute; reflexivity|]. split; eexists; (apply (ex_run_yields _ _ _ _ _ false order2); vm_compute; reflexivity).
Qed.
Print Assumptions C56_self_reference_refuted.
