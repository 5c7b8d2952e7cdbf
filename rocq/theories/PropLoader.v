(** * PropLoader: loading modules (C28-C31). *)
From Coq Require Import Permutation.
From Verif Require Import Base BaseProofs Csvp SourceCode Ast AstParser Eval Options CellParser PropCell Sheet SheetProofs2 PropSheet PropVariables
  ReadTerminates Loader LoaderSpec LoaderProofs LoaderProofs2 LoaderProofs3.

(** ** C28 *)
(** At every point of every run no module has been read twice. *)
Theorem C28_read_once : forall E F use_cache main sh t,
  steps (load_one E F use_cache) (no_modules, TLoad None main) (sh, t) -> NoDup (reads sh).
Proof.
  intros E F uc main sh t H. destruct (reads_inv_run _ _ _ _ H) as [N P].
  assert (Q : NoDup (reads sh ++ pending t)) by (eapply Permutation_NoDup; [symmetry; exact P|exact N]).
  clear -Q. induction (reads sh) as [|x l IH]; cbn [app] in Q; [constructor|]. inversion Q as [|? ? Q1 Q2]; subst. constructor; [|auto]. intro I. apply Q1, in_app_iff. auto.
Qed.
Print Assumptions C28_read_once.
(** When loading ends, every import of the main module and of every loaded module has been recorded, either as loaded, with
    what reading it for one of its importers gave, or as failed, with the reason, not both. *)
Theorem C28_every_import_recorded : forall E F use_cache main sh,
  load_run (load_one E F use_cache) main sh TDone ->
  forall p, (In p (m_requires main) \/ exists q m, passoc q (loaded sh) = Some m /\ In p (m_requires m)) ->
  In p (reads sh)
  /\ ((exists m r, passoc p (loaded sh) = Some m /\ passoc p (failed sh) = None
         /\ reachable (load_one E F use_cache) main p r /\ load_one E F use_cache p r = Ok m)
      \/ (exists e r, passoc p (failed sh) = Some e /\ passoc p (loaded sh) = None
         /\ reachable (load_one E F use_cache) main p r /\ load_one E F use_cache p r = Err e)).
Proof.
  intros E F uc main sh H p Hp. destruct (load_done _ _ _ H) as [R [N [Cm Cl]]]. destruct H as [H _]. destruct (sourced_run _ _ _ _ H) as [_ [Sl Sf]].
  assert (K : In p (map fst (loaded sh) ++ map fst (failed sh))) by (destruct Hp as [Hp|[q [m [L Hp]]]]; [apply Cm, Hp|exact (Cl q m L p Hp)]).
  split; [apply R, K|]. destruct (known_cases sh p N K) as [[m [L1 L2]]|[e [L1 L2]]].
  - left. destruct (Sl _ _ (passoc_In _ _ _ L1)) as [r [A B]]. exists m, r. auto.
  - right. destruct (Sf _ _ (passoc_In _ _ _ L1)) as [r [A B]]. exists e, r. auto.
Qed.
Print Assumptions C28_every_import_recorded.
(** Loading ends: no run goes on for ever, and none gets stuck. Cycles of imports do not matter. *)
Theorem C28_ends : forall E F use_cache main, finite_files F -> exists bound, forall n sh t,
  run_length (load_one E F use_cache) n (no_modules, TLoad None main) (sh, t) ->
  n <= bound /\ exists sh' t', steps (load_one E F use_cache) (sh, t) (sh', t') /\ finished t' = true.
Proof.
  intros E F uc main Hf. destruct (finite_modules E F uc main Hf) as [U HU]. exists (3 + 4 * length U). intros n sh t R.
  split; [eapply run_bounded; eauto|]. eapply run_completes; eauto using load_one_ends.
Qed.
Print Assumptions C28_ends.

(** *** Examples: directories given as lists *)
Definition ex_E (now : nat) : env := {| e_version := 1; e_co := ex_co; e_writable := fun _ => true; e_now := now; e_sheet := ex_env; e_sched := [];
  e_fuel := 10; e_order := fun _ _ _ l => l; e_keys := fun _ l => l |}.
Definition ex_files (srcs : list (list string * string * nat)) : fs :=
  {| sources := fun f => match find (fun x => path_eqb f (map lit (fst (fst x)))) srcs with Some x => Some (lit (snd (fst x)), snd x) | None => None end;
     objects := fun _ => None |}.
Definition edited (F : fs) (f : list string) (text : string) (time : nat) : fs :=
  {| sources := fun g => if path_eqb g (map lit f) then Some (lit text, time) else sources F g; objects := objects F |}.
Definition output_of (m : module) : list (list str) := map (fun r => map show_cell (row_cells r)) (sheet_rows (pr_sheet (m_program m))).
Definition texts (r : outcome compile_error module) : outcome compile_error (list (list str)) :=
  match r with Ok m => Ok (output_of m) | Err e => Err e | Panic => Panic | NoFuel => NoFuel end.
Definition ex_run (E : env) (use_cache : bool) kv (name : string) (F : fs) (last : bool) (order : list (list string)) : option (outcome compile_error module * fs) :=
  exec_compile E use_cache kv (lit name) F 100 last (map (map lit) order).
(** [yields]: some compilation of [name] ends with this output (or failure) and these files *)
Definition yields (E : env) (use_cache : bool) kv (name : string) (F : fs) (r : outcome compile_error (list (list str))) (F' : fs) : Prop :=
  exists x, compiles E use_cache kv (lit name) F x /\ texts (fst x) = r /\ snd x = F'.
Definition files_after (x : option (outcome compile_error module * fs)) (F : fs) : fs := match x with Some (_, F') => F' | None => F end.
Lemma ex_run_yields E uc kv name F last order r : option_map (fun x => texts (fst x)) (ex_run E uc kv name F last order) = Some r ->
  yields E uc kv name F r (files_after (ex_run E uc kv name F last order) F).
Proof.
  unfold ex_run, yields, files_after. destruct (exec_compile _ _ _ _ _ _ _ _) as [[x F']|] eqn:X; [|discriminate]. cbn. intros [= <-]. exists (x, F'). split; [eapply exec_compile_sound; eauto|auto].
Qed.
Definition nl : string := String (Ascii.ascii_of_nat 10) "".
Definition ex_cycle : fs := ex_files [(["main"], "use one" ++ nl ++ "use two" ++ nl ++ "---" ++ nl ++ "=x", 1);
  (["one"], "use two" ++ nl ++ "x := 1" ++ nl ++ "---" ++ nl, 1); (["two"], "use one" ++ nl ++ "use three" ++ nl ++ "---" ++ nl, 1)]%string.
Definition ex_main (F : fs) : module := match load_from_cache_from_filename (ex_E 5) F [lit "main"] [lit "main"] with Ok m => m | _ =>
  {| m_version := 0; m_path := []; m_program := ex_prog; m_file := []; m_dirty := false; m_needs_eval := false |} end.
Definition ex_end (F : fs) (last : bool) : shared * thread := exec (load_one (ex_E 5) F true) 100 last (no_modules, TLoad None (ex_main F)).
Lemma find_names (srcs : list (list string * string * nat)) f : In f (map (fun x => map lit (fst (fst x))) srcs) \/ find (fun x => path_eqb f (map lit (fst (fst x)))) srcs = None.
Proof.
  induction srcs as [|x srcs [IH|IH]]; cbn [map find In]; auto. destruct (path_eqb_spec f (map lit (fst (fst x)))) as [->|N]; auto.
Qed.
Lemma ex_files_finite srcs : finite_files (ex_files srcs).
Proof.
  exists (map (fun x => map lit (fst (fst x))) srcs). intro f. cbn [sources objects ex_files]. destruct (find_names srcs f) as [H|H]; [auto|]. rewrite H. auto.
Qed.
(** a cycle, a shared module and a missing one *)
Example C28_nonvacuous : exists sh, load_run (load_one (ex_E 5) ex_cycle true) (ex_main ex_cycle) sh TDone
  /\ map fst (loaded sh) = [[lit "one"]; [lit "two"]] /\ map fst (failed sh) = [[lit "three"]] /\ reads sh = [[lit "one"]; [lit "two"]; [lit "three"]]
  /\ finite_files ex_cycle.
Proof.
  exists (fst (ex_end ex_cycle false)). split; [|split; [|split; [|split]]]; [|vm_compute; reflexivity..|apply ex_files_finite].
  assert (H : snd (ex_end ex_cycle false) = TDone) by (vm_compute; reflexivity). split; [|reflexivity]. rewrite <- H, <- surjective_pairing. apply exec_steps.
Qed.

(** ** C29 *)
(** Two complete runs record the same modules and the same failures, provided an import means the same file wherever it
    stands. Missing: imports that mean different files in different directories (refuted below). *)
Theorem C29_schedule_partial : forall E F use_cache main sh1 sh2,
  unambiguous (load_one E F use_cache) main ->
  load_run (load_one E F use_cache) main sh1 TDone -> load_run (load_one E F use_cache) main sh2 TDone ->
  forall p, passoc p (loaded sh1) = passoc p (loaded sh2) /\ passoc p (failed sh1) = passoc p (failed sh2).
Proof.
  intros E F uc main sh1 sh2 U H1 H2 p. destruct (final_loaded _ _ _ H1 U p) as [A1 B1]. destruct (final_loaded _ _ _ H2 U p) as [A2 B2]. split.
  - destruct (passoc p (loaded sh1)) as [m|] eqn:L1; [symmetry; apply A2, A1; reflexivity|]. destruct (passoc p (loaded sh2)) as [m|] eqn:L2; [|reflexivity].
    exfalso. assert (X : None = Some m) by (apply A1, A2; reflexivity). discriminate.
  - destruct (passoc p (failed sh1)) as [m|] eqn:L1; [symmetry; apply B2, B1; reflexivity|]. destruct (passoc p (failed sh2)) as [m|] eqn:L2; [|reflexivity].
    exfalso. assert (X : None = Some m) by (apply B1, B2; reflexivity). discriminate.
Qed.
Print Assumptions C29_schedule_partial.
(** For example when all modules are in one directory: every import is one plain name. *)
Definition one_directory (E : env) (F : fs) : Prop :=
  (forall f text t p, sources F f = Some (text, t) -> load_source (e_co E) text = Ok p -> Forall (fun q => length q = 1) (pr_required p))
  /\ (forall f m t, objects F f = Some (ODecoded m, t) -> length (m_path m) = 1 /\ Forall (fun q => length q = 1) (m_requires m)).
Lemma one_directory_loads E F uc p r m : one_directory E F -> length p = 1 -> load_one E F uc p r = Ok m -> length (m_path m) = 1 /\ Forall (fun q => length q = 1) (m_requires m).
Proof.
  intros [HS HO] Hp. assert (A : forall f m, load_from_source E F p f = Ok m -> length (m_path m) = 1 /\ Forall (fun q => length q = 1) (m_requires m)).
  { intros f m0. unfold load_from_source. destruct (sources F f) as [[text t]|] eqn:S; [|discriminate]. destruct (load_source (e_co E) text) eqn:L; try discriminate. intros [= <-]. cbn. split; [exact Hp|]. eapply HS; eauto. }
  unfold load_one, load_from_cache, load_from_object. destruct uc; [|apply A]. destruct (objects F _) as [[[m0|] t]|] eqn:O; try apply A.
  intro H. apply dirty_check_ok in H as [X1 [X2 _]]. unfold m_requires. rewrite X1, X2. eapply HO; eauto.
Qed.
Lemma removelast_one {A} (l : list A) : length l = 1 -> removelast l = [].
Proof. destruct l as [|x [|y l]]; cbn; congruence. Qed.
Theorem C29_one_directory_partial : forall E F use_cache main sh1 sh2,
  one_directory E F -> length (m_path main) = 1 -> Forall (fun q => length q = 1) (m_requires main) ->
  load_run (load_one E F use_cache) main sh1 TDone -> load_run (load_one E F use_cache) main sh2 TDone ->
  forall p, passoc p (loaded sh1) = passoc p (loaded sh2) /\ passoc p (failed sh1) = passoc p (failed sh2).
Proof.
  intros E F uc main sh1 sh2 D Hm Hr. apply C29_schedule_partial.
  assert (X : forall p r, reachable (load_one E F uc) main p r -> length p = 1 /\ length r = 1).
  { intros p r H. induction H as [p Hp|q r m p H [IH1 IH2] L Hp].
    - rewrite Forall_forall in Hr. auto.
    - destruct (one_directory_loads _ _ _ _ _ _ D IH1 L) as [A B]. rewrite Forall_forall in B. auto. }
  intros p r r' H H'. apply X in H as [_ H]. apply X in H' as [_ H']. unfold load_one, load_from_cache, filename_relative_to. rewrite !removelast_one by assumption. reflexivity.
Qed.
Print Assumptions C29_one_directory_partial.
Example C29_nonvacuous : one_directory (ex_E 5) ex_cycle /\ length (m_path (ex_main ex_cycle)) = 1 /\ m_requires (ex_main ex_cycle) = [[lit "one"]; [lit "two"]].
Proof.
  split; [|vm_compute; auto]. split; [|discriminate]. intros f text t p. cbn [sources ex_cycle ex_files find fst snd].
  repeat match goal with |- context [if ?b then _ else _] => destruct b end; intros H L; try discriminate; injection H as <- _; revert L; vm_compute; intros [= <-]; repeat constructor.
Qed.
(** C29 refuted: a/x and b/x both import y, which is a/y for the one and b/y for the other; whichever thread comes first
    decides for both, and the output differs. (Such imports have to be written as strings, whose quotes belong to the name.) *)
Definition ex_race : fs := ex_files [(["main"], "use ""a/x""" ++ nl ++ "use ""b/x""" ++ nl ++ "---" ++ nl ++ "=w", 1);
  (["""a"; "x"""], "use y" ++ nl ++ "w := v" ++ nl ++ "---" ++ nl, 1); (["""b"; "x"""], "use y" ++ nl ++ "---" ++ nl, 1);
  (["""a"; "y"], "v := 1" ++ nl ++ "---" ++ nl, 1); (["""b"; "y"], "v := 2" ++ nl ++ "---" ++ nl, 1)]%string.
Theorem C29_directories_refuted : exists F1 F2,
  yields (ex_E 5) false [] "main" ex_race (Ok [[lit "=1"]]) F1 /\ yields (ex_E 5) false [] "main" ex_race (Ok [[lit "=2"]]) F2.
Proof.
  do 2 eexists. split.
  - apply (ex_run_yields _ _ _ _ _ false [["y"]; ["""a"; "x"""]; ["""b"; "x"""]; ["main"]]%string). vm_compute. reflexivity.
  - apply (ex_run_yields _ _ _ _ _ true [["y"]; ["""a"; "x"""]; ["""b"; "x"""]; ["main"]]%string). vm_compute. reflexivity.
Qed.
Print Assumptions C29_directories_refuted.

(** ** C30 *)
(** A compilation in which some module could not be loaded does not succeed, and the main module's object file is not written. *)
Lemma eval_in_order_writes E uc : forall order ld scopes F f, (forall p m, In (p, m) ld -> m_file m <> f) ->
  objects (snd (eval_in_order E uc order ld scopes F)) f = objects F f.
Proof.
  induction order as [|p order IH]; intros ld scopes F f H; cbn [eval_in_order]; [reflexivity|]. destruct (passoc p ld) as [m|] eqn:L; [|apply IH, H].
  destruct (negb (m_needs_eval m)); [apply IH, H|]. destruct (merge_scopes _ _ _) as [sc|]; [|reflexivity]. destruct (eval_scope E p sc) as [sc'| | |]; try reflexivity. cbn zeta.
  assert (H' : forall q m', In (q, m') (pinsert p (with_scope m sc') ld) -> m_file m' <> f).
  { intros q m' I. apply pinsert_In in I as [[-> ->]|I]; [cbn; exact (H p m (passoc_In _ _ _ L))|exact (H _ _ I)]. }
  destruct uc; [|apply IH, H']. unfold write_object. destruct (e_writable E _); [|reflexivity]. rewrite IH by exact H'. cbn [objects m_file with_scope].
  destruct (path_eqb_spec f (m_file m)) as [->|]; [destruct (H p m (passoc_In _ _ _ L)); reflexivity|reflexivity].
Qed.
Theorem C30_never_succeeds : forall E use_cache kv main sh t order F, failed sh <> [] ->
  (forall m, fst (compile_with E use_cache kv main sh t order F) <> Ok m)
  /\ ((forall p m, In (p, m) (loaded sh) -> m_file m <> m_file main) ->
      objects (snd (compile_with E use_cache kv main sh t order F)) (m_file main) = objects F (m_file main)).
Proof.
  intros E uc kv main sh t order F H. unfold compile_with. destruct (panicked t); [split; [discriminate|reflexivity]|]. unfold load_main. destruct (any_dirty main (loaded sh)); [split; [discriminate|reflexivity]|].
  unfold eval_dependencies. pose proof (eval_in_order_writes E uc order (loaded sh) (map (fun pm => (fst pm, m_scope (snd pm))) (loaded sh)) F (m_file main)) as W.
  destruct (eval_in_order E uc order (loaded sh) _ F) as [r F1]. cbn [snd] in W. destruct r as [ld| | |]; try (split; [discriminate|exact W]). unfold merge_direct_dependencies.
  destruct (failed sh); [contradiction|split; [discriminate|exact W]].
Qed.
Print Assumptions C30_never_succeeds.
(** A compilation that succeeds has loaded everything that is imported. *)
Theorem C30_success_loads_all : forall E use_cache kv name F m F', compiles E use_cache kv name F (Ok m, F') ->
  exists main sh, load_from_cache_from_filename E F [name] [name] = Ok main /\ load_run (load_one E F use_cache) main sh TDone
  /\ forall p, (In p (m_requires main) \/ exists q mq, passoc q (loaded sh) = Some mq /\ In p (m_requires mq)) -> exists mp, passoc p (loaded sh) = Some mp.
Proof.
  intros E uc kv name F m F' H. inversion H as [main sh t order L R O Eq|e L Eq|]; subst.
  assert (D : t = TDone). { destruct R as [_ Fi]. destruct t; try discriminate; reflexivity. }
  subst t. exists main, sh. split; [exact L|]. split; [exact R|]. intros p Hp. destruct (C28_every_import_recorded _ _ _ _ _ R p Hp) as [_ [[mp [r [A _]]]|[e [r [A _]]]]]; [eauto|].
  exfalso. assert (N : failed sh <> []) by (destruct (failed sh); discriminate). destruct (C30_never_succeeds E uc kv main sh TDone order F N) as [X _]. apply (X m). rewrite Eq. reflexivity.
Qed.
Print Assumptions C30_success_loads_all.
(** If only the main module imports modules that could not be loaded, the error lists exactly these modules, with the
    reasons, unless evaluating the loaded ones fails first. Missing: failing imports of other modules (refuted below), and
    runs in which an indirect dependency is dirty, which never end (C32). *)
Theorem C30_report_partial : forall E F use_cache kv main sh order,
  load_run (load_one E F use_cache) main sh TDone -> any_dirty main (loaded sh) = false -> failed sh <> [] ->
  (forall p m q, passoc p (loaded sh) = Some m -> In q (m_requires m) -> passoc q (failed sh) = None) ->
  match fst (compile_with E use_cache kv main sh TDone order F) with
  | Err (ModuleLoadErrors l) => l = failed sh
  | Err (DependencyEval p e) => exists m sc, passoc p (loaded sh) = Some m /\ eval_scope E p sc = Err e
  | Err (NotWritten f) => use_cache = true /\ e_writable E f = false
  | Err (MainNotLoaded _) | Err (MainEval _) | Ok _ => False
  | Panic => exists p m sc, passoc p (loaded sh) = Some m /\ eval_scope E p sc = Panic
  | NoFuel => exists p m sc, passoc p (loaded sh) = Some m /\ eval_scope E p sc = NoFuel
  end.
Proof.
  intros E F uc kv main sh order H Hd Hne Hi. unfold compile_with. cbn [panicked]. unfold load_main. rewrite Hd. unfold eval_dependencies.
  destruct (load_done _ _ _ H) as [_ [N [_ Cl]]]. destruct H as [H _].
  assert (X : forall ord ld scopes F0,
    (forall p m, passoc p ld = Some m -> (exists m0, passoc p (loaded sh) = Some m0) /\ forall q, In q (m_requires m) -> passoc q scopes <> None) ->
    match fst (eval_in_order E uc ord ld scopes F0) with
    | Err (DependencyEval p e) => exists m sc, passoc p (loaded sh) = Some m /\ eval_scope E p sc = Err e
    | Err (NotWritten f) => uc = true /\ e_writable E f = false
    | Err _ => False
    | Ok _ => True
    | Panic => exists p m sc, passoc p (loaded sh) = Some m /\ eval_scope E p sc = Panic
    | NoFuel => exists p m sc, passoc p (loaded sh) = Some m /\ eval_scope E p sc = NoFuel
    end).
  { induction ord as [|p ord IH]; intros ld scopes F0 I; cbn [eval_in_order]; [exact Logic.I|]. destruct (passoc p ld) as [m|] eqn:L; [|apply IH, I].
    destruct (negb (m_needs_eval m)); [apply IH, I|]. destruct (I p m L) as [[m0 L0] Rq].
    assert (M : forall req sc, (forall q, In q req -> passoc q scopes <> None) -> merge_scopes scopes req sc <> None).
    { induction req as [|q req IHr]; intros sc Hq; cbn [merge_scopes]; [discriminate|]. destruct (passoc q scopes) eqn:Q; [|exfalso; apply (Hq q); [left; reflexivity|exact Q]].
      apply IHr. intros q' Hq'. apply Hq. right. exact Hq'. }
    destruct (merge_scopes scopes (rev (m_requires m)) (m_scope m)) as [sc|] eqn:Ms.
    2: { exfalso. revert Ms. apply M. intros q Hq. apply Rq. apply in_rev. exact Hq. }
    destruct (eval_scope E p sc) as [sc'|e| |] eqn:Ev; cbn [fst]; [|exists m0, sc; auto|exists p, m0, sc; auto|exists p, m0, sc; auto]. cbn zeta.
    assert (I' : forall q mq, passoc q (pinsert p (with_scope m sc') ld) = Some mq ->
       (exists m1, passoc q (loaded sh) = Some m1) /\ forall q', In q' (m_requires mq) -> passoc q' (pinsert (m_path (with_scope m sc')) sc' scopes) <> None).
    { intros q mq Lq. assert (W : (exists m1, passoc q (loaded sh) = Some m1) /\ forall q', In q' (m_requires mq) -> passoc q' scopes <> None).
      { destruct (path_eq_dec q p) as [->|D]; [rewrite passoc_insert_same in Lq; injection Lq as <-; split; [eauto|exact Rq]|rewrite passoc_insert_other in Lq by exact D; exact (I q mq Lq)]. }
      destruct W as [W1 W2]. split; [exact W1|]. intros q' Hq'. destruct (path_eq_dec q' (m_path (with_scope m sc'))) as [->|D]; [rewrite passoc_insert_same; discriminate|rewrite passoc_insert_other by exact D; auto]. }
    destruct uc; [|apply IH, I']. unfold write_object. destruct (e_writable E _) eqn:We; [apply IH, I'|cbn [fst]; auto]. }
  specialize (X order (loaded sh) (map (fun pm => (fst pm, m_scope (snd pm))) (loaded sh)) F).
  assert (PM : forall q, passoc q (map (fun pm => (fst pm, m_scope (snd pm))) (loaded sh)) = option_map m_scope (passoc q (loaded sh))).
  { intro q. clear. induction (loaded sh) as [|[a b] l IH]; cbn [map passoc fst snd]; [reflexivity|]. destruct (path_eqb q a); [reflexivity|exact IH]. }
  destruct (eval_in_order E uc order (loaded sh) _ F) as [r F1]. cbn [fst] in X.
  assert (Y := X ltac:(intros p m L; split; [eauto|]; intros q Hq; rewrite PM; pose proof (Cl p m L q Hq) as K; destruct (known_cases sh q N K) as [[mq [Lq _]]|[e [Le _]]];
    [rewrite Lq; discriminate|rewrite (Hi p m q L Hq) in Le; discriminate])). clear X.
  destruct r as [ld|[]| |]; cbn [fst]; auto; try contradiction. unfold merge_direct_dependencies. destruct (failed sh) eqn:Fs; [contradiction|reflexivity].
Qed.
Print Assumptions C30_report_partial.
Definition ex_missing : fs := ex_files [(["main"], "use one" ++ nl ++ "use gone" ++ nl ++ "use bad" ++ nl ++ "---" ++ nl ++ "=x", 1);
  (["one"], "x := 1" ++ nl ++ "---" ++ nl, 1); (["bad"], "x := )" ++ nl ++ "---" ++ nl, 1)]%string.
Example C30_nonvacuous : exists sh, load_run (load_one (ex_E 5) ex_missing true) (ex_main ex_missing) sh TDone /\ any_dirty (ex_main ex_missing) (loaded sh) = false
  /\ map fst (failed sh) = [[lit "gone"]; [lit "bad"]] /\ map (fun pm => m_requires (snd pm)) (loaded sh) = [[]]
  /\ passoc [lit "gone"] (failed sh) = Some (Unreadable [lit "gone"]).
Proof.
  exists (fst (ex_end ex_missing false)). split; [|vm_compute; auto].
  assert (H : snd (ex_end ex_missing false) = TDone) by (vm_compute; reflexivity). split; [|reflexivity]. rewrite <- H, <- surjective_pairing. apply exec_steps.
Qed.
(** C30 refuted: when a module that is not the main one imports a missing module, the compiler panics. *)
Definition ex_deep_missing : fs := ex_files [(["main"], "use one" ++ nl ++ "---" ++ nl ++ "=x", 1); (["one"], "use gone" ++ nl ++ "x := 1" ++ nl ++ "---" ++ nl, 1)]%string.
Theorem C30_indirect_refuted : exists F', yields (ex_E 5) true [] "main" ex_deep_missing Panic F'.
Proof. eexists. apply (ex_run_yields _ _ _ _ _ false [["gone"]; ["one"]; ["main"]]%string). vm_compute. reflexivity. Qed.
Print Assumptions C30_indirect_refuted.

(** ** C31 *)
(** the first of these modules that exports the name *)
Fixpoint first_import (get : scope -> list (str * node)) (name : str) (scopes : list scope) : option node :=
  match scopes with
  | [] => None
  | sc :: scopes => if str_in name (exports sc) then match assoc name (get sc) with Some v => Some v | None => first_import get name scopes end
                    else first_import get name scopes
  end.
Lemma merge_first (get : scope -> list (str * node)) : (get = variables \/ get = functions) -> forall sc other rest name,
  match assoc name (get (scope_merge sc other)) with Some v => Some v | None => first_import get name rest end
  = match assoc name (get sc) with Some v => Some v | None => first_import get name (other :: rest) end.
Proof.
  intros G sc other rest name. unfold scope_merge. destruct (scope_merge_spec other (exports other) sc name) as [A [B _]]. cbn [first_import].
  destruct G as [-> | ->]; [rewrite A; destruct (assoc name (variables sc))|rewrite B; destruct (assoc name (functions sc))]; try reflexivity;
    destruct (str_in name (exports other)); reflexivity.
Qed.
(** The main module: its own definition, else that of the first import. *)
Theorem C31_main_first : forall main loaded m, NoDup (m_requires main) ->
  merge_direct_dependencies main loaded [] = Ok m ->
  exists scopes, Forall2 (fun p sc => exists mp, passoc p loaded = Some mp /\ sc = m_scope mp) (m_requires main) scopes
  /\ forall get name, get = variables \/ get = functions ->
     assoc name (get (m_scope m)) = match assoc name (get (m_scope main)) with Some v => Some v | None => first_import get name scopes end.
Proof.
  intros main ld m N H. unfold merge_direct_dependencies in H. destruct (merge_required (m_requires main) ld (m_scope main)) as [sc|] eqn:M; [|discriminate]. injection H as <-.
  change (m_scope (with_scope main sc)) with sc. revert N M. generalize (m_requires main). generalize (m_scope main). intros sc0 req. revert sc0 ld.
  induction req as [|p req IH]; intros sc0 ld N M; cbn [merge_required] in M.
  - injection M as <-. exists []. split; [constructor|]. intros get name _. cbn. destruct (assoc name (get sc0)); reflexivity.
  - inversion N as [|? ? N1 N2]; subst. destruct (passoc p ld) as [mp|] eqn:L; [|discriminate]. destruct (IH _ _ N2 M) as [scopes [F2 K]]. exists (m_scope mp :: scopes). split.
    + constructor; [eauto|]. clear -F2 N1. induction F2 as [|q sc req scopes [mq [A B]] F2 IHf]; constructor.
      * exists mq. split; [|exact B]. rewrite <- A. clear -N1. assert (D : q <> p) by (intro; subst; apply N1; left; reflexivity). clear N1. induction ld as [|[a b] ld IH]; cbn [premove passoc]; [reflexivity|].
        destruct (path_eqb_spec p a) as [<-|Da]; cbn [passoc].
        -- destruct (path_eqb_spec q p); [contradiction|reflexivity].
        -- destruct (path_eqb_spec q a); [reflexivity|exact IH].
      * apply IHf. intro I. apply N1. right. exact I.
    + intros get name G. rewrite (K get name G). rewrite merge_first by exact G. reflexivity.
Qed.
Print Assumptions C31_main_first.
(** Any other module: its own definition, else that of the last import. *)
Theorem C31_dependency_last : forall scopes m sc, merge_scopes scopes (rev (m_requires m)) (m_scope m) = Some sc ->
  exists ss, Forall2 (fun p s => passoc p scopes = Some s) (m_requires m) ss
  /\ forall get name, get = variables \/ get = functions ->
     assoc name (get sc) = match assoc name (get (m_scope m)) with Some v => Some v | None => first_import get name (rev ss) end.
Proof.
  intros scopes m sc M.
  assert (X : forall req sc0, merge_scopes scopes req sc0 = Some sc -> exists ss, Forall2 (fun p s => passoc p scopes = Some s) req ss
    /\ forall get name, get = variables \/ get = functions -> assoc name (get sc) = match assoc name (get sc0) with Some v => Some v | None => first_import get name ss end).
  { induction req as [|p req IH]; intros sc0 H; cbn [merge_scopes] in H.
    - injection H as <-. exists []. split; [constructor|]. intros get name _. cbn. destruct (assoc name (get sc0)); reflexivity.
    - destruct (passoc p scopes) as [s|] eqn:L; [|discriminate]. destruct (IH _ H) as [ss [F2 K]]. exists (s :: ss). split; [constructor; assumption|].
      intros get name G. rewrite (K get name G), merge_first by exact G. reflexivity. }
  destruct (X _ _ M) as [ss [F2 K]]. exists (rev ss). rewrite rev_involutive. split; [|exact K].
  clear -F2. assert (R : forall (P : module_path -> scope -> Prop) a b, Forall2 P a b -> Forall2 P (rev a) (rev b)).
  { intros P a b H. induction H; cbn [rev]; [constructor|]. apply Forall2_app; [assumption|]. constructor; [assumption|constructor]. }
  apply R in F2. rewrite rev_involutive in F2. exact F2.
Qed.
Print Assumptions C31_dependency_last.
(** C31 refuted: the same two imports in the same order; the main module takes x from the first, the other module from the last. *)
Definition ex_order : fs := ex_files [(["main"], "use one" ++ nl ++ "use two" ++ nl ++ "use lib" ++ nl ++ "---" ++ nl ++ "=x,=y", 1);
  (["lib"], "use one" ++ nl ++ "use two" ++ nl ++ "y := x" ++ nl ++ "---" ++ nl, 1); (["one"], "x := 1" ++ nl ++ "---" ++ nl, 1); (["two"], "x := 2" ++ nl ++ "---" ++ nl, 1)]%string.
Theorem C31_same_order_refuted : exists F', yields (ex_E 5) true [] "main" ex_order (Ok [[lit "=1"; lit "=2"]]) F'.
Proof. eexists. apply (ex_run_yields _ _ _ _ _ false [["one"]; ["two"]; ["lib"]; ["main"]]%string). vm_compute. reflexivity. Qed.
Print Assumptions C31_same_order_refuted.
(** and importing a module twice is harmless in a dependency but a panic in the main module *)
Definition ex_twice : fs := ex_files [(["main"], "use one" ++ nl ++ "use one" ++ nl ++ "---" ++ nl ++ "=x", 1); (["one"], "x := 1" ++ nl ++ "---" ++ nl, 1)]%string.
Definition ex_twice_below : fs := ex_files [(["main"], "use lib" ++ nl ++ "---" ++ nl ++ "=y", 1);
  (["lib"], "use one" ++ nl ++ "use one" ++ nl ++ "y := x" ++ nl ++ "---" ++ nl, 1); (["one"], "x := 1" ++ nl ++ "---" ++ nl, 1)]%string.
Theorem C31_import_twice_refuted : (exists F', yields (ex_E 5) true [] "main" ex_twice Panic F')
  /\ (exists F', yields (ex_E 5) true [] "main" ex_twice_below (Ok [[lit "=1"]]) F').
Proof.
  split; eexists.
  - apply (ex_run_yields _ _ _ _ _ false [["one"]; ["main"]]%string). vm_compute. reflexivity.
  - apply (ex_run_yields _ _ _ _ _ false [["one"]; ["lib"]; ["main"]]%string). vm_compute. reflexivity.
Qed.
Print Assumptions C31_import_twice_refuted.
