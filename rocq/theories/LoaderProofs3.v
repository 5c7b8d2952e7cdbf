(** * LoaderProofs3: reading ends, finite directories, what a compilation depends on, and an executable scheduler. *)
From Coq Require Import Permutation.
From Verif Require Import Base BaseProofs Csvp SourceCode Ast AstParser Eval Options CellParser Sheet ReadTerminates Loader LoaderSpec LoaderProofs LoaderProofs2.

(** ** Reading a module ends *)
Lemma from_source_ends E F p f : load_from_source E F p f <> NoFuel.
Proof.
  unfold load_from_source. destruct (sources F f) as [[text t]|]; [|discriminate]. pose proof (load_source_ends (e_co E) text) as L.
  destruct (load_source (e_co E) text); try discriminate. congruence.
Qed.
Lemma dirty_check_ends E F m : check_if_is_dirty E F m <> NoFuel /\ check_if_is_dirty E F m <> Panic.
Proof.
  unfold check_if_is_dirty. destruct (objects F (m_file m)) as [[o t]|]; [|split; discriminate]. destruct (sources F (m_file m)) as [[x t']|]; [|split; discriminate].
  destruct (t <? t'); split; discriminate.
Qed.
Lemma load_one_ends E F uc p r : load_one E F uc p r <> NoFuel.
Proof.
  unfold load_one, load_from_cache. destruct uc; [|apply from_source_ends]. destruct (load_from_object F _) as [m|]; [|apply from_source_ends].
  apply dirty_check_ends.
Qed.
Lemma main_ends E F p f : load_from_cache_from_filename E F p f <> NoFuel.
Proof.
  unfold load_from_cache_from_filename. destruct (load_from_object F f) as [m|]; [|apply from_source_ends]. pose proof (dirty_check_ends E F m) as [D _].
  destruct (check_if_is_dirty E F m) as [m'| | |]; cbn [bind]; try discriminate; [|congruence]. destruct (m_dirty m'); [apply from_source_ends|discriminate].
Qed.

(** ** Finitely many files have finitely many modules *)
Definition file_requires (E : env) (F : fs) (f : file) : list module_path :=
  match objects F f with Some (ODecoded m, _) => m_requires m | _ => [] end
  ++ match sources F f with
     | Some (text, _) => match load_source (e_co E) text with Ok p => pr_required p | _ => [] end
     | None => []
     end.
Lemma source_requires E F p f m : load_from_source E F p f = Ok m -> incl (m_requires m) (file_requires E F f).
Proof.
  unfold load_from_source, file_requires. destruct (sources F f) as [[text t]|]; [|discriminate]. destruct (load_source (e_co E) text); try discriminate.
  intros [= <-]. cbn. apply incl_appr, incl_refl.
Qed.
Lemma dirty_check_ok E F m m' : check_if_is_dirty E F m = Ok m' -> m_program m' = m_program m /\ m_path m' = m_path m /\ m_file m' = m_file m /\ m_version m' = m_version m
  /\ exists o t s t', objects F (m_file m) = Some (o, t) /\ sources F (m_file m) = Some (s, t')
     /\ ((t < t' /\ m_dirty m' = true /\ m_needs_eval m' = true) \/ (t' <= t /\ m_dirty m' = (e_version E <? m_version m) /\ m_needs_eval m' = m_needs_eval m)).
Proof.
  unfold check_if_is_dirty. destruct (objects F (m_file m)) as [[o t]|]; [|discriminate]. destruct (sources F (m_file m)) as [[s t']|]; [|discriminate].
  destruct (Nat.ltb_spec t t'); intros [= <-]; cbn; repeat (split; [reflexivity|]); exists o, t, s, t'; auto 8.
Qed.
Lemma load_one_requires E F uc p r m : load_one E F uc p r = Ok m -> incl (m_requires m) (file_requires E F (filename_relative_to p r)).
Proof.
  unfold load_one, load_from_cache, load_from_object. destruct uc; [|apply source_requires].
  destruct (objects F _) as [[[m0|] t]|] eqn:O; try apply source_requires.
  intro H. apply dirty_check_ok in H as [Hp _]. unfold m_requires. rewrite Hp. unfold file_requires. rewrite O. apply incl_appl, incl_refl.
Qed.
Lemma finite_modules E F uc main : finite_files F -> exists U, all_modules (load_one E F uc) main U.
Proof.
  intros [L HL]. exists (m_requires main ++ flat_map (file_requires E F) L). split; [apply incl_appl, incl_refl|].
  intros p r m _ H q Hq. apply load_one_requires in H. apply H in Hq. apply in_app_iff. right. apply in_flat_map. exists (filename_relative_to p r). split; [|exact Hq].
  destruct (HL (filename_relative_to p r)) as [I|[A B]]; [exact I|]. unfold file_requires in Hq. rewrite A, B in Hq. destruct Hq.
Qed.

(** ** Every run can be completed *)
Section Complete.
  Variable load_one : module_path -> module_path -> outcome load_failure module.
  Variable main : module.
  Notation start := (no_modules, TLoad None main).
  Lemma run_snoc n c c1 c2 : run_length load_one n c c1 -> step load_one c1 c2 -> run_length load_one (S n) c c2.
  Proof. intro R. revert c2. induction R as [c|n c c' c'' H R IH]; intros c2 Hs; [eapply rl_S; [exact Hs|apply rl_0]|eapply rl_S; [exact H|apply IH, Hs]]. Qed.
  Lemma steps_trans c c1 c2 : steps load_one c c1 -> steps load_one c1 c2 -> steps load_one c c2.
  Proof. induction 1; intros; [assumption|eapply st_step; eauto]. Qed.
  Lemma run_completes U : all_modules load_one main U -> (forall p r, load_one p r <> NoFuel) ->
    forall n sh t, run_length load_one n start (sh, t) -> exists sh' t', steps load_one (sh, t) (sh', t') /\ finished t' = true.
  Proof.
    intros HU NF. assert (Q : forall n sh t, run_length load_one n start (sh, t) -> stuck t = false).
    { intros n sh t R. apply run_steps in R. refine (steps_ind2 load_one (fun sh t => stuck t = false) _ _ _ _ _ R eq_refl).
      intros. eapply stuck_step; eauto. }
    assert (X : forall k n sh t, 4 + 4 * length U <= n + k -> run_length load_one n start (sh, t) -> exists sh' t', steps load_one (sh, t) (sh', t') /\ finished t' = true).
    { induction k as [|k IH]; intros n sh t Hk R.
      - exfalso. pose proof (run_bounded load_one main U n sh t HU R). lia.
      - destruct (progress load_one t sh (Q n sh t R)) as [Fi|[sh1 [t1 St]]]; [exists sh, t; split; [apply st_refl|exact Fi]|].
        destruct (IH (S n) sh1 t1) as [sh' [t' [A B]]]; [lia|eapply run_snoc; eauto|]. exists sh', t'. split; [eapply st_step; eauto|exact B]. }
    intros n sh t R. eapply (X (4 + 4 * length U)); [|exact R]. lia.
  Qed.
End Complete.

(** ** Only what reading gives matters *)
Section Same.
  Variables l1 l2 : module_path -> module_path -> outcome load_failure module.
  Hypothesis same : forall p r, l1 p r = l2 p r.
  Lemma step_same c c' : step l1 c c' -> step l2 c c'.
  Proof. induction 1; try (constructor; assumption). rewrite same. apply s_read. Qed.
  Lemma steps_same c c' : steps l1 c c' -> steps l2 c c'.
  Proof. induction 1; [apply st_refl|eapply st_step; eauto using step_same]. Qed.
  Lemma run_same main sh t : load_run l1 main sh t -> load_run l2 main sh t.
  Proof. intros [A B]. split; [apply steps_same, A|exact B]. Qed.
End Same.
Lemma eval_in_order_fs E uc : forall order ld scopes F F', fst (eval_in_order E uc order ld scopes F) = fst (eval_in_order E uc order ld scopes F').
Proof.
  induction order as [|p order IH]; intros ld scopes F F'; cbn [eval_in_order]; [reflexivity|]. destruct (passoc p ld) as [m|]; [|apply IH].
  destruct (negb (m_needs_eval m)); [apply IH|]. destruct (merge_scopes _ _ _) as [sc|]; [|reflexivity]. destruct (eval_scope E p sc) as [sc'| | |]; try reflexivity.
  cbn zeta. destruct uc; [|apply IH]. unfold write_object. destruct (e_writable E _); [apply IH|reflexivity].
Qed.
Lemma compile_with_fs E uc kv main sh t order F F' : fst (compile_with E uc kv main sh t order F) = fst (compile_with E uc kv main sh t order F').
Proof.
  unfold compile_with. destruct (panicked t); [reflexivity|]. unfold load_main. destruct (any_dirty main (loaded sh)); [reflexivity|].
  unfold eval_dependencies. pose proof (eval_in_order_fs E uc order (loaded sh) (map (fun pm => (fst pm, m_scope (snd pm))) (loaded sh)) F F') as X.
  destruct (eval_in_order E uc order (loaded sh) _ F) as [r F1]. destruct (eval_in_order E uc order (loaded sh) _ F') as [r' F2]. cbn [fst] in X. subst r'.
  destruct r as [ld| | |]; try reflexivity. destruct (merge_direct_dependencies main ld (failed sh)) as [m| | |]; try reflexivity.
  unfold finish. destruct (m_needs_eval _); [|reflexivity]. destruct (main_eval _ _ _ _); try reflexivity. destruct uc; [|reflexivity]. unfold write_object. destruct (e_writable E _); reflexivity.
Qed.
Lemma compiles_same E uc kv name F F' r :
  load_from_cache_from_filename E F [name] [name] = load_from_cache_from_filename E F' [name] [name] ->
  (forall p q, load_one E F uc p q = load_one E F' uc p q) ->
  compiles E uc kv name F r -> exists r', compiles E uc kv name F' r' /\ fst r' = fst r.
Proof.
  intros Hm Hl H. destruct H as [main sh t order Lm R O|e Lm|Lm].
  - eexists. split; [eapply c_run; [rewrite <- Hm; exact Lm|eapply run_same; [exact Hl|exact R]|exact O]|]. apply compile_with_fs.
  - eexists. split; [apply c_main_failed; rewrite <- Hm; exact Lm|reflexivity].
  - eexists. split; [apply c_main_panics; rewrite <- Hm; exact Lm|reflexivity].
Qed.
Lemma eval_in_order_no_cache E : forall order ld scopes F, snd (eval_in_order E false order ld scopes F) = F.
Proof.
  induction order as [|p order IH]; intros ld scopes F; cbn [eval_in_order]; [reflexivity|]. destruct (passoc p ld) as [m|]; [|apply IH].
  destruct (negb (m_needs_eval m)); [apply IH|]. destruct (merge_scopes _ _ _) as [sc|]; [|reflexivity]. destruct (eval_scope E p sc) as [sc'| | |]; try reflexivity.
  apply IH.
Qed.
Lemma compile_with_no_cache E kv main sh t order F : snd (compile_with E false kv main sh t order F) = F.
Proof.
  unfold compile_with. destruct (panicked t); [reflexivity|]. unfold load_main. destruct (any_dirty main (loaded sh)); [reflexivity|].
  unfold eval_dependencies. pose proof (eval_in_order_no_cache E order (loaded sh) (map (fun pm => (fst pm, m_scope (snd pm))) (loaded sh)) F) as X.
  destruct (eval_in_order E false order (loaded sh) _ F) as [r F1]. cbn [snd] in X. subst F1.
  destruct r as [ld| | |]; try reflexivity. destruct (merge_direct_dependencies main ld (failed sh)) as [m| | |]; try reflexivity.
  unfold finish. destruct (m_needs_eval _); [|reflexivity]. destruct (main_eval _ _ _ _); reflexivity.
Qed.

(** ** An executable scheduler, for examples *)
Section Exec.
  Variable load_one : module_path -> module_path -> outcome load_failure module.
  (** [last]: run the last unfinished kid first *)
  Fixpoint exec1 (last : bool) (sh : shared) (t : thread) {struct t} : option (shared * thread) :=
    match t with
    | TStart p r => Some ({| attempted := attempted sh; loaded := loaded sh; failed := failed sh; reads := reads sh ++ [p] |},
                          match load_one p r with Ok m => TLoad (Some p) m | Err e => TFail p e | Panic => TPanicked | NoFuel => TStuck end)
    | TFail p e => Some ({| attempted := attempted sh; loaded := loaded sh; failed := pinsert p e (failed sh); reads := reads sh |}, TDone)
    | TLoad slot m => let new := reserve (attempted sh) (m_requires m) in
        Some ({| attempted := attempted sh ++ new; loaded := loaded sh; failed := failed sh; reads := reads sh |}, TJoin slot m (map (fun q => TStart q (m_path m)) new))
    | TJoin slot m kids =>
        if forallb finished kids then
          if existsb panicked kids then Some (sh, TPanicked)
          else Some (match slot with
                     | Some p => {| attempted := attempted sh; loaded := pinsert p m (loaded sh); failed := failed sh; reads := reads sh |}
                     | None => sh
                     end, TDone)
        else
          match (fix go (ks : list thread) : option (shared * list thread) :=
                   match ks with
                   | [] => None
                   | k :: ks =>
                       let here := match exec1 last sh k with Some (sh', k') => Some (sh', k' :: ks) | None => None end in
                       let there := match go ks with Some (sh', ks') => Some (sh', k :: ks') | None => None end in
                       if last then match there with Some x => Some x | None => here end
                       else match here with Some x => Some x | None => there end
                   end) kids with
          | Some (sh', kids') => Some (sh', TJoin slot m kids')
          | None => None
          end
    | TDone | TPanicked | TStuck => None
    end.
  Lemma exec1_step last : forall t sh sh' t', exec1 last sh t = Some (sh', t') -> step load_one (sh, t) (sh', t').
  Proof.
    induction t as [p r|s m|s m kids IH|p e| | |] using thread_induction; intros sh sh' t' H; cbn [exec1] in H; try discriminate.
    - injection H as <- <-. apply s_read.
    - injection H as <- <-. apply s_reserve.
    - destruct (forallb finished kids) eqn:Fk.
      + destruct (existsb panicked kids) eqn:P; injection H as <- <-; constructor; assumption.
      + match type of H with match ?g with _ => _ end = _ => destruct g as [[sh1 kids']|] eqn:G end; [|discriminate]. injection H as <- <-.
        assert (X : exists a k k' b, kids = a ++ k :: b /\ kids' = a ++ k' :: b /\ step load_one (sh, k) (sh1, k')).
        { clear Fk. revert kids' G. induction kids as [|k ks IHk]; intros kids' G; [discriminate|]. inversion IH as [|? ? I1 I2]; subst.
          assert (Q1 : forall sh0 k0, exec1 last sh k = Some (sh0, k0) -> Some (sh0, k0 :: ks) = Some (sh1, kids') ->
                       exists a k' k'' b, k :: ks = a ++ k' :: b /\ kids' = a ++ k'' :: b /\ step load_one (sh, k') (sh1, k'')).
          { intros sh0 k0 E1 E2. injection E2 as -> <-. exists [], k, k0, ks. split; [reflexivity|]. split; [reflexivity|]. apply I1, E1. }
          destruct (exec1 last sh k) as [[sh0 k0]|] eqn:E1;
            match type of G with context [match ?g with Some _ => _ | None => _ end] => idtac end;
            [|]; destruct last;
            repeat match type of G with
                   | context [match ?g ks with _ => _ end] => destruct (g ks) as [[sh2 ks2]|] eqn:E2
                   end; try discriminate; try (eapply Q1; [reflexivity|exact G]);
            injection G as -> <-; destruct (IHk I2 _ eq_refl) as [a [k1 [k2 [b [-> [-> St]]]]]]; exists (k :: a), k1, k2, b; auto. }
        destruct X as [a [k [k' [b [-> [-> St]]]]]]. apply s_kid, St.
    - injection H as <- <-. apply s_failed.
  Qed.
  Fixpoint exec (n : nat) (last : bool) (c : shared * thread) : shared * thread :=
    match n with
    | 0 => c
    | S n => match exec1 last (fst c) (snd c) with Some c' => exec n last c' | None => c end
    end.
  Lemma exec_steps last : forall n c, steps load_one c (exec n last c).
  Proof.
    induction n as [|n IH]; intro c; cbn [exec]; [apply st_refl|]. destruct c as [sh t]. cbn [fst snd]. destruct (exec1 last sh t) as [[sh' t']|] eqn:E; [|apply st_refl].
    eapply st_step; [eapply exec1_step; exact E|apply IH].
  Qed.
End Exec.
Fixpoint topological (next : module_path -> list module_path) (seen order : list module_path) : bool :=
  match order with
  | [] => true
  | p :: order => negb (path_in p seen) && forallb (fun q => path_in q seen) (next p) && topological next (p :: seen) order
  end.
Definition order_ok (main : module) (loaded : list (module_path * module)) (order : list module_path) : bool :=
  topological (edges main loaded) [] order && forallb (fun p => path_in p order) (graph_nodes main loaded) && forallb (fun p => path_in p (graph_nodes main loaded)) order.
Lemma topological_before main ld : forall order seen, topological (edges main ld) seen order = true ->
  (forall p q, In p seen -> leads_to main ld p q -> In q seen) ->
  forall a p b, order = a ++ p :: b -> (forall q, leads_to main ld p q -> In q (seen ++ a)) /\ NoDup order /\ (forall q, In q order -> ~ In q seen).
Proof.
  induction order as [|x order IH]; intros seen T C a p b Eq; [destruct a; discriminate|]. cbn [topological] in T. apply andb_true_iff in T as [T1 T2]. apply andb_true_iff in T1 as [T0 T1].
  assert (Nx : ~ In x seen). { intro I. apply path_in_spec in I. rewrite I in T0. discriminate. }
  assert (Ed : forall q, In q (edges main ld x) -> In q seen). { intros q Hq. rewrite forallb_forall in T1. apply path_in_spec, T1, Hq. }
  assert (Lx : forall q, leads_to main ld x q -> In q seen). { intros q Hq. inversion Hq; subst; [auto|]. eapply C; [|eassumption]. auto. }
  assert (C' : forall p q, In p (x :: seen) -> leads_to main ld p q -> In q (x :: seen)). { intros p0 q [<-|I] H; right; [auto|eapply C; eauto]. }
  assert (N : NoDup (x :: order) /\ (forall q, In q (x :: order) -> ~ In q seen)).
  { destruct order as [|y order'].
    - split; [constructor; [intros []|constructor]|]. intros q [<-|[]]. exact Nx.
    - destruct (IH (x :: seen) T2 C' [] y order' eq_refl) as [_ [N1 N2]]. split.
      + constructor; [intro I; apply (N2 x I); left; reflexivity|exact N1].
      + intros q [<-|I]; [exact Nx|]. intro J. apply (N2 q I). right. exact J. }
  destruct N as [N1 N2]. split; [|split; assumption].
  destruct a as [|y a]; cbn [app] in Eq; injection Eq as -> Eq.
  - intros q Hq. rewrite app_nil_r. auto.
  - intros q Hq. destruct (IH (y :: seen) T2 C' a p b Eq) as [X _]. specialize (X q Hq). rewrite !in_app_iff in *. cbn [In] in *. intuition.
Qed.
Lemma order_ok_spec main ld order : order_ok main ld order = true -> resolution_order main ld order.
Proof.
  unfold order_ok. rewrite !andb_true_iff. intros [[T A] B]. rewrite forallb_forall in A, B. split.
  - intro p. split; intro H; [apply path_in_spec, B, H|apply path_in_spec, A, H].
  - intros _ a p b q c Eq L. exfalso. destruct (topological_before main ld order [] T ltac:(intros ? ? []) a p (b ++ q :: c) Eq) as [X [N _]].
    specialize (X q L). cbn [app] in X. rewrite Eq in N. apply in_split in X as [a1 [a2 ->]]. rewrite <- app_assoc in N. cbn [app] in N. apply NoDup_remove_2 in N. apply N.
    rewrite !in_app_iff. right. right. right. rewrite in_app_iff. cbn. auto.
Qed.
(** a whole compilation, computed *)
Definition exec_compile (E : env) (uc : bool) (kv : list (str * node)) (name : str) (F : fs) (n : nat) (last : bool) (order : list module_path)
  : option (outcome compile_error module * fs) :=
  match load_from_cache_from_filename E F [name] [name] with
  | Ok main =>
      let (sh, t) := exec (load_one E F uc) n last (no_modules, TLoad None main) in
      if finished t && order_ok main (loaded sh) order then Some (compile_with E uc kv main sh t order F) else None
  | _ => None
  end.
Lemma exec_compile_sound E uc kv name F n last order r : exec_compile E uc kv name F n last order = Some r -> compiles E uc kv name F r.
Proof.
  unfold exec_compile. destruct (load_from_cache_from_filename E F [name] [name]) as [main| | |] eqn:L; try discriminate.
  pose proof (exec_steps (load_one E F uc) last n (no_modules, TLoad None main)) as S. destruct (exec _ _ _ _) as [sh t].
  destruct (finished t) eqn:Fi; cbn [andb]; [|discriminate]. destruct (order_ok main (loaded sh) order) eqn:O; [|discriminate]. intros [= <-].
  eapply c_run; [exact L|split; [exact S|exact Fi]|apply order_ok_spec, O].
Qed.

(** *** which modules are found to be out of date *)
Lemma simple_path_sound next to : forall fuel max visited cur, NoDup visited -> simple_path fuel next max visited cur to = true ->
  exists vs, 2 <= length visited + length vs /\ NoDup (rev vs ++ visited) /\ ~ In to vs /\ import_chain next cur vs to.
Proof.
  induction fuel as [|fuel IH]; intros max visited cur Nd H; [discriminate|]. cbn [simple_path] in H.
  destruct (length visited <? max).
  - apply existsb_exists in H as [c [Hc H]]. destruct (path_eqb_spec c to) as [->|Hn].
    + apply Nat.leb_le in H. exists []. cbn. repeat split; auto; lia.
    + destruct (path_in c visited) eqn:Pi; [discriminate|].
      assert (Nv : ~ In c visited) by (intro X; apply path_in_spec in X; congruence).
      destruct (IH _ _ _ (NoDup_cons c Nv Nd) H) as [vs [L [N2 [Nt Ch]]]]. exists (c :: vs). cbn [length rev import_chain] in *.
      rewrite <- app_assoc. cbn. repeat split; auto; [lia|]. intros [->|X]; auto.
  - apply andb_prop in H as [L H]. apply Nat.leb_le in L. apply existsb_exists in H as [c [Hc E]].
    destruct (path_eqb_spec c to) as [->|Hn]; [|discriminate]. exists []. cbn. repeat split; auto; lia.
Qed.
Lemma simple_path_complete next to : forall vs fuel max visited cur,
  import_chain next cur vs to -> ~ In to vs -> NoDup (rev vs ++ visited) -> 2 <= length visited + length vs -> length visited + length vs <= max ->
  length vs < fuel -> simple_path fuel next max visited cur to = true.
Proof.
  induction vs as [|v vs IH]; intros fuel max visited cur Ch Nt Nd L2 Lm Lf; (destruct fuel as [|fuel]; [lia|]); cbn [simple_path import_chain length] in *.
  - destruct (length visited <? max).
    + apply existsb_exists. exists to. split; [exact Ch|]. destruct (path_eqb_spec to to); [|congruence]. apply Nat.leb_le; lia.
    + apply andb_true_intro. split; [apply Nat.leb_le; lia|]. apply existsb_exists. exists to. split; [exact Ch|]. destruct (path_eqb_spec to to); congruence.
  - destruct Ch as [Hv Ch]. destruct (Nat.ltb_spec (length visited) max); [|lia].
    apply existsb_exists. exists v. split; [exact Hv|]. destruct (path_eqb_spec v to) as [->|_]; [exfalso; apply Nt; left; reflexivity|].
    cbn [rev] in Nd. rewrite <- app_assoc in Nd. cbn in Nd.
    destruct (path_in v visited) eqn:Pi.
    { apply path_in_spec in Pi. apply NoDup_remove_2 in Nd. exfalso. apply Nd, in_or_app. right; exact Pi. }
    apply IH; auto; cbn [length]; try lia. intro X; apply Nt; right; exact X.
Qed.
Lemma chain_nodes main ld : forall vs p q, import_chain (edges main ld) p vs q -> incl vs (graph_nodes main ld) /\ In q (graph_nodes main ld).
Proof.
  assert (X : forall p v, In v (edges main ld p) -> In v (graph_nodes main ld)).
  { intros p v H. unfold graph_nodes. apply reserve_spec. split; [|intros []]. unfold edges in H. apply in_app_or in H as [H|H].
    - destruct (path_eqb p (m_path main)); [|destruct H]. right. apply in_or_app. left; exact H.
    - destruct (passoc p ld) as [m|] eqn:Pa; [|destruct H]. apply passoc_In in Pa. right. apply in_or_app. right. apply in_flat_map. exists (p, m). split; [exact Pa|right; exact H]. }
  induction vs as [|v vs IH]; intros p q Ch; cbn in Ch; [split; [intros ? []|eauto]|]. destruct Ch as [Hv Ch]. destruct (IH _ _ Ch) as [I1 I2].
  split; [|exact I2]. intros w [<-|Hw]; eauto.
Qed.
Lemma any_dirty_if main ld p m : passoc p ld = Some m -> m_dirty m = true -> p <> m_path main -> imported_indirectly main ld p -> any_dirty main ld = true.
Proof.
  intros Pa D Hpm [vs [Hne [Nd [Nt Ch]]]]. unfold any_dirty. apply existsb_exists.
  destruct (chain_nodes main ld _ _ _ Ch) as [I1 I2]. exists p. split; [exact I2|]. rewrite Pa, D. cbn [andb].
  assert (L : length (p :: m_path main :: vs) <= length (graph_nodes main ld)).
  { apply NoDup_incl_length; [constructor; [intros [X|X]; [congruence|contradiction]|exact Nd]|].
    intros w [<-|[<-|Hw]]; [exact I2| |apply I1, Hw]. apply reserve_spec. split; [left; reflexivity|intros []]. }
  cbn [length] in L. apply simple_path_complete with (vs := vs); auto; cbn [length]; try lia.
  + apply (Permutation.Permutation_NoDup (l := m_path main :: vs)); [|exact Nd].
    eapply Permutation.perm_trans; [apply Permutation.Permutation_cons_append|]. apply Permutation.Permutation_app_tail, Permutation.Permutation_rev.
  + destruct vs; [congruence|cbn; lia].
Qed.
Lemma any_dirty_iff main ld : (forall m, passoc (m_path main) ld = Some m -> m_dirty m = false) ->
  any_dirty main ld = true <-> exists p m, passoc p ld = Some m /\ m_dirty m = true /\ imported_indirectly main ld p.
Proof.
  intro Hm. split.
  - unfold any_dirty. rewrite existsb_exists. intros [p [Hp H]]. destruct (passoc p ld) as [m|] eqn:Pa; [|discriminate]. apply andb_prop in H as [D H].
    destruct (simple_path_sound (edges main ld) p _ _ [m_path main] _ ltac:(constructor; [intros []|constructor]) H) as [vs [L [Nd [Nt Ch]]]].
    exists p, m. repeat split; auto. exists vs. repeat split; auto.
    + intros ->. cbn in L. lia.
    + apply (Permutation.Permutation_NoDup (l := rev vs ++ [m_path main])); [|exact Nd]. apply Permutation.Permutation_sym.
      eapply Permutation.perm_trans; [apply Permutation.Permutation_cons_append|]. apply Permutation.Permutation_app_tail, Permutation.Permutation_rev.
  - intros [p [m [Pa [D Hi]]]]. apply (any_dirty_if main ld p m); auto. intros ->. specialize (Hm _ Pa); congruence.
Qed.
