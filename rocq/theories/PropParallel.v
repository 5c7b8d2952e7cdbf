(** * PropParallel: compilations at the same time do not disturb each other (C95). *)
From Verif Require Import Base BaseProofs Csvp Ast AstProofs Eval EvalSpec EvalRounds Options CellParser AstParser Sheet SheetProofs2 ModuleProofs Loader LoaderSpec LoaderProofs LoaderProofs2 LoaderProofs3 PropLoader PropCache PropModules HistorySpec HistoryProofs PropHistory Parallel.

Lemma eval_in_order_objects E uc : forall order ld scopes F F', (forall f, objects F f = objects F' f) ->
  forall f, objects (snd (eval_in_order E uc order ld scopes F)) f = objects (snd (eval_in_order E uc order ld scopes F')) f.
Proof.
  induction order as [|p order IH]; intros ld scopes F F' H; cbn [eval_in_order]; [exact H|]. destruct (passoc p ld) as [m|]; [|apply IH; exact H].
  destruct (negb (m_needs_eval m)); [apply IH; exact H|]. destruct (merge_scopes _ _ _) as [sc|]; [|exact H]. destruct (eval_scope E p sc) as [sc'| | |]; try exact H.
  cbv zeta. destruct uc; [|apply IH; exact H]. unfold write_object. destruct (e_writable E _); [|exact H]. apply IH. cbn [objects]. intro f. rewrite H. reflexivity.
Qed.
Lemma compile_with_objects E uc kv main sh t order F F' : (forall f, objects F f = objects F' f) ->
  forall f, objects (snd (compile_with E uc kv main sh t order F)) f = objects (snd (compile_with E uc kv main sh t order F')) f.
Proof.
  intro H. unfold compile_with. destruct (panicked t); [exact H|]. unfold load_main. destruct (any_dirty main (loaded sh)); [exact H|].
  unfold eval_dependencies. pose proof (eval_in_order_fs E uc order (loaded sh) (map (fun pm => (fst pm, m_scope (snd pm))) (loaded sh)) F F') as X.
  pose proof (eval_in_order_objects E uc order (loaded sh) (map (fun pm => (fst pm, m_scope (snd pm))) (loaded sh)) F F' H) as Y.
  destruct (eval_in_order E uc order (loaded sh) _ F) as [r F1]. destruct (eval_in_order E uc order (loaded sh) _ F') as [r' F2]. cbn [fst snd] in X, Y. subst r'.
  destruct r as [ld| | |]; try exact Y. destruct (merge_direct_dependencies main ld (failed sh)) as [m| | |]; try exact Y.
  unfold finish. destruct (m_needs_eval _); [|exact Y]. destruct (main_eval _ _ _ _); try exact Y. destruct uc; [|exact Y]. unfold write_object. destruct (e_writable E _); [|exact Y].
  cbn [snd objects]. intro f. rewrite Y. reflexivity.
Qed.

Section Library.
  Context (E0 : env) (F0 : fs) (Lib : module_path -> file -> Prop) (L : library E0 F0 Lib).
  Notation faithful := (faithful E0 F0 Lib).
  Notation mains := (mains Lib).
  (** an object file at least as new as its source *)
  Definition fresh (G : fs) (f : file) : Prop := exists o t, objects G f = Some (o, t) /\ forall text t', sources F0 f = Some (text, t') -> t' <= t.
  Definition persists (G1 G2 : fs) : Prop := forall p f, Lib p f -> fresh G1 f -> fresh G2 f.
  Lemma faithful_fresh G p f m t : faithful G -> Lib p f -> objects G f = Some (ODecoded m, t) -> fresh G f.
  Proof. intros [_ B] H Q. destruct (B _ _ _ _ H Q) as [_ T]. exists (ODecoded m), t. auto. Qed.
  (** what holds of all states of a directory *)
  Definition orderly (T : list fs) : Prop := (forall G, In G T -> faithful G /\ mains G) /\ (forall G1 G2, no_later T G1 G2 -> persists G1 G2).
  Lemma no_later_cons T x G1 G2 : no_later (x :: T) G1 G2 -> (G2 = x) \/ no_later T G1 G2.
  Proof.
    intros [a [b [H I]]]. destruct a as [|y a]; cbn [app] in *.
    - injection H as <- _. destruct I as [<-|[]]. auto.
    - injection H as <- H. destruct I as [<-|I]; [auto|]. right. exists a, b. auto.
  Qed.
  Lemma no_later_in T G1 G2 : no_later T G1 G2 -> In G1 T /\ In G2 T.
  Proof. intros [a [b [-> I]]]. split; [apply in_elt|]. apply in_or_app. apply in_app_or in I as [I|[<-|[]]]; [left; exact I|right; left; reflexivity]. Qed.
  Lemma no_later_recent T T' G1 G2 : no_later T G1 G2 -> no_later (T ++ T') G1 G2.
  Proof. intros [a [b [-> I]]]. exists a, (b ++ T'). rewrite <- app_assoc. auto. Qed.
  Lemma no_later_head T x G : In G (x :: T) -> no_later (x :: T) G x.
  Proof. intros I. apply in_split in I as [a [b H]]. exists a, b. split; [exact H|]. destruct a as [|y a]; cbn [app] in *; injection H as <- _; left; reflexivity. Qed.
  Lemma orderly_recent T T' : orderly (T ++ T') -> orderly T.
  Proof. intros [A B]. split; [intros G I; apply A, in_or_app; auto|]. intros G1 G2 N. apply B, no_later_recent, N. Qed.
  Lemma orderly_cons T x F : orderly (F :: T) -> faithful x -> mains x -> persists F x -> orderly (x :: F :: T).
  Proof.
    intros [A B] Fx Mx P. split; [intros G [<-|I]; [auto|apply A, I]|]. intros G1 G2 N. pose proof (no_later_in _ _ _ N) as [I1 _]. destruct (no_later_cons _ _ _ _ N) as [->|N']; [|apply B, N'].
    destruct I1 as [<-|I1]; [intros p f _ K; exact K|]. intros p f Hf K. apply (P p f Hf). apply (B G1 F) with (p := p); [apply no_later_head; exact I1|exact Hf|exact K].
  Qed.
  (** reading a module of the library at any time gives the same, up to what has been evaluated *)
  Lemma load_while_either T E uc : same_compiler E0 E -> orderly T -> forall load, loads_among T E uc load ->
    forall p r, Lib p (filename_relative_to p r) -> exists m, load p r = Ok m /\ either E0 F0 Lib p m.
  Proof.
    intros C [A B] load Ld p r H. destruct (Ld p r) as [G1 [G2 [G3 [N [I3 ->]]]]]. destruct (no_later_in _ _ _ N) as [I1 I2]. destruct (A _ I1) as [F1 _]. destruct (A _ I3) as [F3 _].
    destruct (good_exists E0 F0 Lib L _ _ H) as [m0 [sc [G Lm]]].
    assert (Src : load_from_source E G3 p (filename_relative_to p r) = Ok m0) by (rewrite <- Lm; apply load_source_of; [exact C|apply (proj1 F3 _ _ H)]).
    unfold load_while. destruct uc; [|exists m0; split; [exact Src|exists m0, sc; auto]]. destruct (load_from_object G1 (filename_relative_to p r)) as [m|] eqn:O; [|exists m0; split; [exact Src|exists m0, sc; auto]].
    apply object_decodes in O as [t O]. pose proof (faithful_fresh _ _ _ _ _ F1 H O) as Fr. apply (B _ _ N _ _ H) in Fr as [o2 [t2 [O2 T2]]].
    destruct (proj2 F1 _ _ _ _ H O) as [[m1 [s1 [Gd ->]]] _]. destruct (good_unique E0 F0 Lib L _ _ _ _ _ G Gd) as [<- <-]. destruct (good_shape E0 F0 Lib _ _ _ G) as [Sp [Sn [Sd [Sv Sf]]]].
    destruct (from_source_shape _ _ _ _ _ Lm) as [Mf _]. unfold check_if_is_dirty, looked_up. cbn [m_file with_scope objects sources]. rewrite Mf, O2.
    assert (Q : exists text t', sources F0 (filename_relative_to p r) = Some (text, t')) by (unfold load_from_source in Lm; destruct (sources F0 _) as [[a b]|]; [eauto|discriminate]).
    destruct Q as [text [t' Q]]. rewrite (proj1 F3 _ _ H), Q. specialize (T2 _ _ Q). destruct (Nat.ltb_spec t2 t'); [lia|]. cbn [m_version m_needs_eval with_scope]. rewrite Sv.
    destruct C as [Cv _]. rewrite Cv. rewrite Nat.ltb_irrefl, Sn. eexists. split; [reflexivity|]. exists m0, sc. split; [exact G|]. right. unfold with_flags, with_scope. cbn [m_version m_path m_program m_file m_dirty m_needs_eval pr_sheet pr_required].
    rewrite Sd, Sn. reflexivity.
  Qed.
  Lemma main_among_main T E name main : same_compiler E0 E -> orderly T -> (forall G, In G T -> uses_library E G Lib name) -> main_among T E name (Ok main) -> a_main Lib main /\ m_file main = [name].
  Proof.
    intros C [A _] U [G1 [G2 [G3 [G4 [N [I3 [I4 H]]]]]]]. destruct (no_later_in _ _ _ N) as [I1 I2]. destruct (A _ I1) as [_ M1].
    assert (X : forall m, load_from_source E G4 [name] [name] = Ok m -> a_main Lib m /\ m_file m = [name]).
    { intros m Q. destruct (U _ I4) as [U1 [U2 U3]]. destruct (from_source_shape _ _ _ _ _ Q) as [Q1 [Q2 _]]. split; [|exact Q1]. destruct (U3 _ Q) as [Q3 Q4]. exists name. auto 10. }
    unfold main_while in H. destruct (load_from_object G1 [name]) as [m|] eqn:O; [|auto]. apply object_decodes in O as [t O]. symmetry in H. apply bind_ok in H as [m1 [K H]]. destruct (m_dirty m1); [auto|]. injection H as <-.
    destruct (U _ I1) as [_ [U2 _]]. destruct (M1 _ _ _ U2 O) as [Q1 Q2]. assert (exists d n, m1 = with_flags m d n) as [d [n ->]].
    { unfold check_if_is_dirty in K. destruct (objects _ (m_file m)) as [[o ot]|]; [|discriminate]. destruct (sources _ (m_file m)) as [[x y]|]; [|discriminate]. destruct (ot <? y); injection K as <-; eauto. }
    split; [|exact Q1]. destruct Q2 as [nm Q2]. exists nm. exact Q2.
  Qed.
  (** a directory of one's own with the sources, for what is written *)
  Definition own (G : fs) : fs := without_objects G.
  Lemma own_faithful G : faithful G -> faithful (own G) /\ mains (own G).
  Proof. intros [A B]. split; [split; [exact A|discriminate]|discriminate]. Qed.

  Lemma writes_good T E name f o F : same_compiler E0 E -> orderly T -> In F T -> in_the_past E F Lib -> (forall G, In G T -> uses_library E G Lib name) -> writes_among T E name f o ->
    (o = OGarbage \/ exists m, o = ODecoded m
       /\ (forall p, Lib p f -> exists m0 sc, good E0 F0 Lib p m0 sc /\ m = with_scope m0 sc) /\ ((forall p, ~ Lib p f) -> m_file m = f /\ a_main Lib m)).
  Proof.
    intros C Or I Past U W. destruct (proj1 Or _ I) as [Ff _]. destruct (own_faithful _ Ff) as [Fo Mo]. assert (Po : in_the_past E (own F) Lib) by exact Past.
    assert (X : forall W' o t, faithful W' -> mains W' -> objects W' f = Some (o, t) -> o = OGarbage \/ exists m, o = ODecoded m
       /\ (forall p, Lib p f -> exists m0 sc, good E0 F0 Lib p m0 sc /\ m = with_scope m0 sc) /\ ((forall p, ~ Lib p f) -> m_file m = f /\ a_main Lib m)).
    { intros W' o1 t1 [_ Fw] Mw Q. destruct o1 as [m|]; [right|left; reflexivity]. exists m. split; [reflexivity|]. split; [intros p Hp; apply (Fw _ _ _ _ Hp Q)|]. intro N. apply (Mw _ _ _ N Q). }
    induction W as [main load sh order rest r W o t Lm Ld R O Ev Q|kv r W o t Ra Q|o W IH]; [| |left; reflexivity].
    - destruct (main_among_main _ _ _ _ C Or U Lm) as [Am _]. pose proof Am as [nm [A1 [A2 [A3 [A4 [A5 A6]]]]]].
      assert (Im : forall q, In q (m_requires main) -> Lib q (filename_relative_to q (m_path main))) by (intros q J; rewrite A2; exact (A6 _ J)).
      assert (Np : forall g, ~ Lib (m_path main) g) by (rewrite A2; exact A3). pose proof (load_while_either T E true C Or load Ld) as Le.
      destruct (eval_dependencies E true order (loaded sh) (own F)) as [r1 W1] eqn:Ev1.
      destruct (killed_faithful E0 F0 Lib L E (own F) true main load C Fo Le Mo Po Np A5 Im sh R _ _ _ _ O Ev1) as [K1 K2]. apply (X W1 o t K1 K2).
      pose proof (eval_in_order_objects E true order (loaded sh) (map (fun pm => (fst pm, m_scope (snd pm))) (loaded sh)) nothing (own F) (fun _ => eq_refl) f) as Y. unfold eval_dependencies in Ev, Ev1. rewrite Ev, Ev1 in Y. cbn [snd] in Y. rewrite <- Y. exact Q.
    - inversion Ra as [main load sh t1 order Lm Ld R O E1|e Lm|Lm]; subst; [|discriminate Q..].
      destruct (main_among_main _ _ _ _ C Or U Lm) as [Am _]. pose proof Am as [nm [A1 [A2 [A3 [A4 [A5 A6]]]]]].
      assert (Im : forall q, In q (m_requires main) -> Lib q (filename_relative_to q (m_path main))) by (intros q J; rewrite A2; exact (A6 _ J)).
      assert (Np : forall g, ~ Lib (m_path main) g) by (rewrite A2; exact A3). assert (Nf : forall p, ~ Lib p (m_file main)) by (rewrite A1; exact A4). pose proof (load_while_either T E true C Or load Ld) as Le.
      assert (t1 = TDone) as ->. { eapply run_no_panic; [|exact R]. intros p q Rc. destruct (Le p q (reach_lib E0 F0 Lib L main load Le Im p q Rc)) as [m [Y _]]. eauto. }
      destruct (compile_with E true kv main sh TDone order (own F)) as [r1 W1] eqn:E2. destruct (run_compile E0 F0 Lib L E (own F) true main load C Fo Le Mo Po Np Nf A5 Im sh R Am kv order r1 W1 O E2) as [K1 [K2 _]].
      apply (X W1 o t K1 K2). pose proof (compile_with_objects E true kv main sh TDone order nothing (own F) (fun _ => eq_refl) f) as Y. rewrite E1, E2 in Y. cbn [snd] in Y. rewrite <- Y. exact Q.
  Qed.
  Lemma timeline_orderly T : timeline E0 F0 Lib T -> orderly T.
  Proof.
    intro H. induction H as [F H|recent before F E name f o H IH Hd C Past U W|F T f s H IH N].
    - destruct (history_faithful E0 F0 Lib L F H) as [A B]. split; [intros G [<-|[]]; auto|]. intros G1 G2 [a [b [Q I]]]. destruct a as [|x [|y a]]; [|discriminate Q..]. injection Q as <- _. destruct I as [<-|[]]. intros p f _ K. exact K.
    - destruct recent as [|F' recent]; [discriminate Hd|]. injection Hd as ->. cbn [app] in *. pose proof (orderly_recent (F :: recent) before IH) as Or. destruct (proj1 IH F (or_introl eq_refl)) as [Ff Mf].
      pose proof (writes_good _ _ _ _ _ F C Or (or_introl eq_refl) Past U W) as X. assert (Tm : forall p, Lib p f -> forall text t', sources F0 f = Some (text, t') -> t' <= e_now E).
      { intros p Hp text t' Q. apply (Past p f text); [exact Hp|]. rewrite (proj1 Ff _ _ Hp). exact Q. }
      apply orderly_cons; [exact IH| | |].
      + split; [apply Ff|]. intros p g m t Hp Q. cbn [objects with_object] in Q. destruct (path_eqb_spec g f) as [->|D]; [|apply (proj2 Ff _ _ _ _ Hp Q)]. injection Q as -> <-.
        destruct X as [X|[m' [X [Y _]]]]; [discriminate X|]. injection X as <-. split; [apply (Y p Hp)|apply (Tm p Hp)].
      + intros g m t Ng Q. cbn [objects with_object] in Q. destruct (path_eqb_spec g f) as [->|D]; [|apply (Mf _ _ _ Ng Q)]. injection Q as -> <-. destruct X as [X|[m' [X [_ Y]]]]; [discriminate X|]. injection X as <-. apply Y, Ng.
      + intros p g Hp [o1 [t1 [Q T1]]]. unfold fresh. cbn [objects with_object]. destruct (path_eqb_spec g f) as [->|D]; [|eauto]. exists o, (e_now E). split; [reflexivity|apply (Tm p Hp)].
    - destruct (proj1 IH F (or_introl eq_refl)) as [Ff Mf]. apply orderly_cons; [exact IH|apply edit_faithful; assumption|exact Mf|]. intros p g _ K. exact K.
  Qed.
End Library.

(** Programs that use the same library may be compiled at the same time, any number of them: each gives exactly what it gives alone in a directory without
    object files, whatever the others have written, half or in full, at any moment in between; as long as nobody else compiles or changes that program meanwhile. *)
Theorem C95_alone : forall E0 F0 Lib recent before F E use_cache use_cache' kv name r W r' G',
  library E0 F0 Lib -> timeline E0 F0 Lib (recent ++ before) ->
  In F recent -> (forall G, In G recent -> sources G [name] = sources F [name] /\ objects G [name] = objects F [name]) ->
  same_compiler E0 E -> in_the_past E F Lib -> uses_library E F Lib name -> (forall f, e_writable E f = true) ->
  no_object F [name] \/ older_object F [name] ->
  run_among recent E use_cache kv name (r, W) -> compiles E use_cache' kv name (without_objects F) (r', G') ->
  r = r'.
Proof.
  intros E0 F0 Lib recent before F E uc uc' kv name r W r' G' L H I Same C Past U Wr Hm Ra K'. pose proof (orderly_recent E0 F0 Lib _ _ (timeline_orderly E0 F0 Lib L _ H)) as Or.
  destruct (proj1 Or F I) as [Ff Mf]. destruct (own_faithful E0 F0 Lib F Ff) as [Fo Mo]. assert (Po : in_the_past E (without_objects F) Lib) by exact Past.
  assert (Us : forall G, In G recent -> uses_library E G Lib name).
  { intros G J. destruct U as [U1 [U2 U3]]. split; [exact U1|]. split; [exact U2|]. intros m Q. apply U3. rewrite <- Q. apply from_source_same. symmetry. apply (Same G J). }
  assert (Ms : forall q, main_among recent E name q -> q = load_from_source E F [name] [name]).
  { intros q [G1 [G2 [G3 [G4 [N [I3 [I4 ->]]]]]]]. destruct (no_later_in _ _ _ N) as [I1 I2]. assert (S4 : load_from_source E G4 [name] [name] = load_from_source E F [name] [name]) by (apply from_source_same; apply (Same G4 I4)).
    unfold main_while, load_from_object. destruct (Same G1 I1) as [_ O1]. rewrite O1. destruct (objects F [name]) as [[[m|] t]|] eqn:Ob; try exact S4. destruct Hm as [Hm|Hm]; [unfold no_object in Hm; rewrite Ob in Hm; destruct Hm|].
    unfold older_object in Hm. rewrite Ob in Hm. destruct Hm as [Mn [text [t' [So Lt]]]]. unfold check_if_is_dirty, looked_up. cbn [objects sources]. rewrite Mn. destruct (Same G2 I2) as [_ ->]. destruct (Same G3 I3) as [-> _]. rewrite So.
    destruct (Nat.ltb_spec t t'); [|lia]. exact S4. }
  assert (Ml : load_from_cache_from_filename E (without_objects F) [name] [name] = load_from_source E F [name] [name]) by (rewrite main_not_clean by (left; exact Logic.I); apply from_source_same; reflexivity).
  assert (Uo : uses_library E (without_objects F) Lib name) by exact U.
  destruct (compiles_spec E0 F0 Lib L _ _ _ _ _ _ _ C Fo Mo Po Uo K') as [_ [_ [[f [_ X']]|X']]]; [rewrite Wr in X'; discriminate|]. change (own F) with (without_objects F) in *. rewrite Ml in X'.
  inversion Ra as [main load sh t1 order Lm Ld R O E1|e Lm E1|Lm E1]; subst.
  - pose proof (Ms _ Lm) as Lm'. rewrite <- Lm' in X'. destruct X' as [sc' [A' ->]]. destruct (main_among_main E0 F0 Lib _ _ _ _ C Or Us Lm) as [Am _]. pose proof Am as [nm [A1 [A2 [A3 [A4 [A5 A6]]]]]].
    assert (Im : forall q, In q (m_requires main) -> Lib q (filename_relative_to q (m_path main))) by (intros q J; rewrite A2; exact (A6 _ J)).
    assert (Np : forall g, ~ Lib (m_path main) g) by (rewrite A2; exact A3). assert (Nf : forall p, ~ Lib p (m_file main)) by (rewrite A1; exact A4). pose proof (load_while_either E0 F0 Lib L recent E uc C Or load Ld) as Le.
    assert (t1 = TDone) as ->. { eapply run_no_panic; [|exact R]. intros p q Rc. destruct (Le p q (reach_lib E0 F0 Lib L main load Le Im p q Rc)) as [m [Y _]]. eauto. }
    destruct (compile_with E uc kv main sh TDone order (without_objects F)) as [r1 W1] eqn:E2. pose proof (compile_with_fs E uc kv main sh TDone order nothing (without_objects F)) as Z. rewrite E1, E2 in Z. cbn [fst] in Z. subst r1.
    destruct (run_compile E0 F0 Lib L E (without_objects F) uc main load C Fo Le Mo Po Np Nf A5 Im sh R Am kv order r W1 O E2) as [_ [_ [[f [_ X]]|[sc [A ->]]]]]; [rewrite Wr in X; discriminate|].
    rewrite (main_scope_unique E0 F0 Lib L main sc sc' A5 A A'). reflexivity.
  - rewrite <- (Ms _ Lm) in X'. congruence.
  - rewrite <- (Ms _ Lm) in X'. congruence.
Qed.
Print Assumptions C95_alone.

(** Nor do they leave anything behind that matters later: after them a program compiles to what it compiles to without any object files. *)
Theorem C95_afterwards : forall E0 F0 Lib T F E use_cache use_cache' kv name r G r' G',
  library E0 F0 Lib -> timeline E0 F0 Lib (F :: T) ->
  same_compiler E0 E -> in_the_past E F Lib -> uses_library E F Lib name -> (forall f, e_writable E f = true) ->
  no_object F [name] \/ older_object F [name] ->
  compiles E use_cache kv name F (r, G) -> compiles E use_cache' kv name (without_objects F) (r', G') ->
  r = r'.
Proof.
  intros E0 F0 Lib T F E uc uc' kv name r G r' G' L H C Past U W Hm K K'. destruct (proj1 (timeline_orderly E0 F0 Lib L _ H) F (or_introl eq_refl)) as [Ff Mf].
  destruct (own_faithful E0 F0 Lib F Ff) as [Ff' Mf'].
  assert (M : load_from_cache_from_filename E F [name] [name] = load_from_cache_from_filename E (without_objects F) [name] [name]).
  { rewrite !main_not_clean by (try assumption; left; exact I). apply from_source_same. reflexivity. }
  destruct (compiles_spec E0 F0 Lib L _ _ _ _ _ _ _ C Ff Mf Past U K) as [_ [_ [[f [_ X]]|X]]]; [rewrite W in X; discriminate|].
  destruct (compiles_spec E0 F0 Lib L _ _ _ _ _ _ _ C Ff' Mf' Past U K') as [_ [_ [[f [_ X']]|X']]]; [rewrite W in X'; discriminate|].
  change (own F) with (without_objects F) in *.
  rewrite <- M in X'. destruct (load_from_cache_from_filename E F [name] [name]) as [main|e| |] eqn:Lm; try congruence.
  destruct X as [sc [A ->]]. destruct X' as [sc' [A' ->]]. assert (Nd : NoDup (m_requires main)) by (eapply main_is_main in Lm as [[nm [_ [_ [_ [_ [Nd _]]]]]] _]; eassumption).
  rewrite (main_scope_unique E0 F0 Lib L main sc sc' Nd A A'). unfold outcome_of, finish. destruct (m_needs_eval _); [|reflexivity]. destruct (main_eval _ _ _ _); reflexivity.
Qed.
Print Assumptions C95_afterwards.

(** ** Examples *)
Lemma load_alone E uc G p r : load_while E uc G G G p r = load_one E G uc p r.
Proof. unfold load_while, load_one, load_from_cache. destruct uc; [|reflexivity]. destruct (load_from_object G _); reflexivity. Qed.
Lemma main_alone E G name : main_while E G G G G name = load_from_cache_from_filename E G [name] [name].
Proof. unfold main_while, load_from_cache_from_filename. destruct (load_from_object G _); reflexivity. Qed.
Lemma no_later_self T G : In G T -> no_later T G G.
Proof. intro I. apply in_split in I as [a [b ->]]. exists a, b. split; [reflexivity|]. apply in_or_app. right. left. reflexivity. Qed.
(** what reads everything in one state is a run among the states *)
Lemma main_among_alone T E G name : In G T -> main_among T E name (load_from_cache_from_filename E G [name] [name]).
Proof. intro I. exists G, G, G, G. rewrite main_alone. split; [apply no_later_self, I|auto]. Qed.
Lemma loads_among_alone T E uc G : In G T -> loads_among T E uc (load_one E G uc).
Proof. intros I p r. exists G, G, G. rewrite load_alone. split; [apply no_later_self, I|auto]. Qed.
Definition run_end (load : module_path -> module_path -> outcome load_failure module) (main : module) : shared * thread := exec load 100 false (no_modules, TLoad None main).
Lemma run_ends load main : snd (run_end load main) = TDone -> load_run load main (fst (run_end load main)) TDone.
Proof. intro H. split; [|reflexivity]. rewrite <- H, <- surjective_pairing. apply exec_steps. Qed.

(** Two programs use lib, which imports base; while main is compiled, the compilation of the other one writes the object file of base. *)
Definition ex_shared : fs := with_source ex_split [lit "other"] (Some (lit ("use lib" ++ nl ++ "---" ++ nl ++ "=fee"), 1)).
Definition main_of (E : env) (G : fs) (name : str) : module := match load_from_cache_from_filename E G [name] [name] with Ok m => m | _ => ex_main ex_split end.
Definition ex_other : module := Eval vm_compute in main_of (ex_E 5) ex_shared (lit "other").
Definition ex_other_end : shared := fst (run_end (load_one (ex_E 5) ex_shared true) ex_other).
Definition ex_base_object : object := match objects (snd (eval_dependencies (ex_E 5) true [[lit "base"]] (loaded ex_other_end) nothing)) [lit "base"] with Some (o, _) => o | None => OGarbage end.
Definition ex_half : fs := with_object ex_shared [lit "base"] (Some (OGarbage, 5)).
Definition ex_whole : fs := with_object ex_half [lit "base"] (Some (ex_base_object, 5)).
(** main reads lib before that, base when its object file is there *)
Definition ex_reads (p r : module_path) : outcome load_failure module := if path_eqb p [lit "base"] then load_one (ex_E 6) ex_whole true p r else load_one (ex_E 6) ex_shared true p r.
Definition ex_reader : module := Eval vm_compute in main_of (ex_E 6) ex_shared (lit "main").
Definition ex_reader_run : outcome compile_error module * fs :=
  compile_with (ex_E 6) true [] ex_reader (fst (run_end ex_reads ex_reader)) TDone (map (map lit) split_order) nothing.
Lemma ex_base_written G : In G [[ex_shared]; [ex_half; ex_shared]] -> writes_among G (ex_E 5) (lit "other") [lit "base"] ex_base_object.
Proof.
  intro I. assert (J : In ex_shared G) by (destruct I as [<-|[<-|[]]]; [left|right; left]; reflexivity).
  eapply wa_import with (main := ex_other) (load := load_one (ex_E 5) ex_shared true) (sh := ex_other_end) (order := [[lit "base"]]) (rest := [[lit "lib"]; [lit "other"]]) (t := 5).
  - assert (X : load_from_cache_from_filename (ex_E 5) ex_shared [lit "other"] [lit "other"] = Ok ex_other) by (vm_compute; reflexivity). rewrite <- X. apply main_among_alone, J.
  - apply loads_among_alone, J.
  - apply run_ends. vm_compute. reflexivity.
  - apply order_ok_spec. vm_compute. reflexivity.
  - apply surjective_pairing.
  - vm_compute. reflexivity.
Qed.
Lemma ex_shared_uses E G name : In G [ex_shared; ex_half; ex_whole] -> In (E, name) [(ex_E 5, lit "other"); (ex_E 6, lit "main")] -> uses_library E G ex_library name.
Proof.
  intros I J. destruct J as [J|[J|[]]]; apply pair_equal_spec in J as [<- <-].
  - split; [intros f [_ [H|[H|[]]]]; discriminate H|]. split; [intros p [<- [H|[H|[]]]]; discriminate H|]. intros m Lm.
    assert (R : match load_from_source (ex_E 5) G [lit "other"] [lit "other"] with Ok m => m_requires m | _ => [] end = [[lit "lib"]]) by (destruct I as [<-|[<-|[<-|[]]]]; vm_compute; reflexivity).
    rewrite Lm in R. rewrite R. split; [constructor; [intros []|constructor]|]. intros q [<-|[]]. split; [reflexivity|left; reflexivity].
  - apply ex_uses; [|destruct I as [<-|[<-|[<-|[]]]]; vm_compute; reflexivity]. destruct I as [<-|[<-|[<-|[]]]]; intros f [<-|[<-|[]]]; vm_compute; reflexivity.
Qed.
Lemma ex_shared_past E G : 1 <= e_now E -> In G [ex_shared; ex_half; ex_whole] -> in_the_past E G ex_library.
Proof. intros H I. apply ex_outside; [destruct I as [<-|[<-|[<-|[]]]]; intros f [<-|[<-|[]]]; vm_compute; reflexivity|exact H]. Qed.
Lemma ex_timeline : timeline (ex_E 5) ex_split ex_library ([ex_whole; ex_half; ex_shared] ++ []).
Proof.
  apply (tl_write _ _ _ [ex_half; ex_shared] [] ex_half (ex_E 5) (lit "other")); [|reflexivity|repeat split| | |apply ex_base_written; right; left; reflexivity].
  - apply (tl_write _ _ _ [ex_shared] [] ex_shared (ex_E 5) (lit "other")); [|reflexivity|repeat split| | |apply wa_part with (o := ex_base_object), ex_base_written; left; reflexivity].
    + apply tl_start. apply h_edit; [apply h_start; reflexivity|intros p [<- [H|[H|[]]]]; discriminate H].
    + apply ex_shared_past; [apply Nat.leb_le; reflexivity|left; reflexivity].
    + intros G [<-|[]]. apply ex_shared_uses; left; reflexivity.
  - apply ex_shared_past; [apply Nat.leb_le; reflexivity|right; left; reflexivity].
  - intros G [<-|[<-|[]]]; (apply ex_shared_uses; [|left; reflexivity]); [right; left|left]; reflexivity.
Qed.
Example C95_nonvacuous :
  library (ex_E 5) ex_split ex_library /\ timeline (ex_E 5) ex_split ex_library ([ex_whole; ex_half; ex_shared] ++ [])
  /\ (forall G, In G [ex_whole; ex_half; ex_shared] -> sources G [lit "main"] = sources ex_shared [lit "main"] /\ objects G [lit "main"] = objects ex_shared [lit "main"])
  /\ same_compiler (ex_E 5) (ex_E 6) /\ in_the_past (ex_E 6) ex_shared ex_library /\ uses_library (ex_E 6) ex_shared ex_library (lit "main") /\ no_object ex_shared [lit "main"]
  /\ run_among [ex_whole; ex_half; ex_shared] (ex_E 6) true [] (lit "main") ex_reader_run
  /\ (exists m, ex_reads [lit "base"] [lit "lib"] = Ok m /\ load_from_object ex_whole [lit "base"] = Some m) /\ load_from_object ex_half [lit "base"] = None
  /\ texts (fst ex_reader_run) = Ok [[lit "=((100 * 2) + 1)"; lit "text"; lit "=100"]]
  /\ (exists G, yields (ex_E 6) true [] "main" (without_objects ex_shared) (Ok [[lit "=((100 * 2) + 1)"; lit "text"; lit "=100"]]) G).
Proof.
  split; [exact ex_is_library|]. split; [exact ex_timeline|]. split; [intros G [<-|[<-|[<-|[]]]]; split; reflexivity|]. split; [repeat split|].
  split; [apply ex_shared_past; [apply Nat.leb_le; reflexivity|left; reflexivity]|]. split; [apply ex_shared_uses; [left; reflexivity|right; left; reflexivity]|]. split; [vm_compute; exact I|]. split; [|split; [|split; [|split]]].
  - apply ra_run with (load := ex_reads).
    + assert (X : load_from_cache_from_filename (ex_E 6) ex_shared [lit "main"] [lit "main"] = Ok ex_reader) by (vm_compute; reflexivity). rewrite <- X. apply main_among_alone. right. right. left. reflexivity.
    + intros p r. unfold ex_reads. destruct (path_eqb p _); [exists ex_whole, ex_whole, ex_whole|exists ex_shared, ex_shared, ex_shared]; rewrite load_alone; (split; [apply no_later_self|split; [|reflexivity]]); auto 10 using in_eq, in_cons.
    + apply run_ends. vm_compute. reflexivity.
    + apply order_ok_spec. vm_compute. reflexivity.
  - exists match ex_reads [lit "base"] [lit "lib"] with Ok m => m | _ => ex_reader end. split; vm_compute; reflexivity.
  - vm_compute. reflexivity.
  - vm_compute. reflexivity.
  - eexists. apply (ex_run_yields _ _ _ _ _ false split_order). vm_compute. reflexivity.
Qed.

(** ** Refuted for the same program compiled twice at the same time *)
(** main was compiled and then edited (C79_nonvacuous); of two compilations at the same time, one begins to write main's object file between the moments in which
    the other has read the old one and looks up its time: the old object file then counts as new, and the other compilation delivers the output from before the edit. *)
Definition ex_first : module := Eval vm_compute in main_of (ex_E 7) ex_touched (lit "main").
Definition ex_first_end : shared := fst (run_end (load_one (ex_E 7) ex_touched true) ex_first).
Definition ex_first_run : outcome compile_error module * fs := compile_with (ex_E 7) true [] ex_first ex_first_end TDone (map (map lit) split_order) nothing.
Definition ex_writing : fs := with_object ex_touched [lit "main"] (Some (OGarbage, 7)).
Definition ex_second_main : module := Eval vm_compute in match main_while (ex_E 7) ex_touched ex_writing ex_writing ex_writing (lit "main") with Ok m => m | _ => ex_first end.
Definition ex_second_run : outcome compile_error module * fs :=
  compile_with (ex_E 7) true [] ex_second_main (fst (run_end (load_one (ex_E 7) ex_touched true) ex_second_main)) TDone (map (map lit) split_order) nothing.
Theorem C95_stale_main_refuted :
  library (ex_E 5) ex_split ex_library /\ timeline (ex_E 5) ex_split ex_library ([ex_writing; ex_touched] ++ [])
  /\ (forall G, In G [ex_writing; ex_touched] -> sources G [lit "main"] = sources ex_touched [lit "main"])
  /\ older_object ex_touched [lit "main"]
  /\ run_among [ex_writing; ex_touched] (ex_E 7) true [] (lit "main") ex_second_run
  /\ texts (fst ex_second_run) = Ok [[lit "=((100 * 2) + 1)"; lit "text"; lit "=100"]]
  /\ (exists G, yields (ex_E 7) true [] "main" (without_objects ex_touched) (Ok [[lit "=(100 * 2)"]]) G).
Proof.
  destruct C79_nonvacuous as [A [B [C [D [U [O [_ [_ Y]]]]]]]]. split; [exact A|]. split; [|split; [intros G [<-|[<-|[]]]; reflexivity|split; [exact O|split; [|split; [|exact Y]]]]].
  - apply (tl_write _ _ _ [ex_touched] [] ex_touched (ex_E 7) (lit "main")); [apply tl_start, B|reflexivity|exact C|exact D|intros G [<-|[]]; exact U|].
    apply wa_part with (o := match objects (snd ex_first_run) [lit "main"] with Some (o, _) => o | None => OGarbage end).
    eapply wa_main with (key_values := []) (r := fst ex_first_run) (W := snd ex_first_run) (t := 7); [|vm_compute; reflexivity].
    rewrite <- surjective_pairing. apply ra_run with (load := load_one (ex_E 7) ex_touched true).
    + assert (X : load_from_cache_from_filename (ex_E 7) ex_touched [lit "main"] [lit "main"] = Ok ex_first) by (vm_compute; reflexivity). rewrite <- X. apply main_among_alone. left. reflexivity.
    + apply loads_among_alone. left. reflexivity.
    + apply run_ends. vm_compute. reflexivity.
    + apply order_ok_spec. vm_compute. reflexivity.
  - apply ra_run with (load := load_one (ex_E 7) ex_touched true).
    + exists ex_touched, ex_writing, ex_writing, ex_writing. split; [|split; [left; reflexivity|split; [left; reflexivity|vm_compute; reflexivity]]]. exists [ex_writing], []. split; [reflexivity|left; reflexivity].
    + apply loads_among_alone. right. left. reflexivity.
    + apply run_ends. vm_compute. reflexivity.
    + apply order_ok_spec. vm_compute. reflexivity.
  - vm_compute. reflexivity.
Qed.
Print Assumptions C95_stale_main_refuted.
