(** * LoaderProofs2: loading comes to an end; what it ends with does not depend on the schedule. *)
From Coq Require Import Permutation.
From Verif Require Import Base BaseProofs Csvp Ast AstParser Eval Sheet Loader LoaderSpec LoaderProofs.

Notation known sh := (pkeys (loaded sh) ++ pkeys (failed sh)).
Section End_.
  Variable load_one : module_path -> module_path -> outcome load_failure module.
  Variable main : module.
  Notation step := (step load_one).
  Notation steps := (steps load_one).
  (** ** Progress *)
  Fixpoint stuck (t : thread) : bool :=
    match t with TStuck => true | TJoin _ _ kids => existsb stuck kids | _ => false end.
  Lemma progress : forall t sh, stuck t = false -> finished t = true \/ exists sh' t', step (sh, t) (sh', t').
  Proof.
    induction t as [p r|s m|s m kids IH|p e| | |] using thread_induction; intros sh Hs; try (left; reflexivity).
    - right. eexists _, _. apply s_read.
    - right. eexists _, _. apply s_reserve.
    - right. destruct (forallb finished kids) eqn:F.
      + destruct (existsb panicked kids) eqn:P; eexists _, _; [apply s_join_panics|apply s_joined]; assumption.
      + assert (exists a k b, kids = a ++ k :: b /\ finished k = false) as [a [k [b [-> Fk]]]].
        { clear -F. induction kids as [|k kids IH]; [discriminate|]. cbn [forallb] in F. destruct (finished k) eqn:E.
          - destruct (IH F) as [a [k' [b [-> H]]]]. exists (k :: a), k', b. auto.
          - exists [], k, kids. auto. }
        apply Forall_app in IH as [_ IH]. inversion IH as [|? ? Ik _]; subst. cbn [stuck] in Hs. rewrite existsb_app in Hs. cbn [existsb] in Hs.
        apply orb_false_iff in Hs as [_ Hs]. apply orb_false_iff in Hs as [Hs _].
        destruct (Ik sh Hs) as [C|[sh' [t' St]]]; [congruence|]. eexists _, _. apply s_kid. exact St.
    - right. eexists _, _. apply s_failed.
    - discriminate.
  Qed.
  Lemma stuck_step sh t sh' t' : (forall p r, load_one p r <> NoFuel) -> step (sh, t) (sh', t') -> stuck t = false -> stuck t' = false.
  Proof.
    intros NF H. remember (sh, t) as c eqn:Ec. remember (sh', t') as c' eqn:Ec'. revert sh t sh' t' Ec Ec'.
    induction H as [sh p r|sh p e|sh slot m new|sh sh1 slot m a k k' b H IH|sh slot m kids F P|sh slot m kids F P];
      intros sh0 t0 sh0' t0' E1 E2 Hs; inversion E1; inversion E2; subst; clear E1 E2; try reflexivity.
    - specialize (NF p r). destruct (load_one p r); try reflexivity. congruence.
    - cbn [stuck]. induction new as [|x l IHl]; [reflexivity|exact IHl].
    - cbn [stuck] in *. rewrite existsb_app in *. cbn [existsb] in *. apply orb_false_iff in Hs as [Ha Hs]. apply orb_false_iff in Hs as [Hk Hb].
      rewrite Ha, Hb, (IH _ _ _ _ eq_refl eq_refl Hk). reflexivity.
  Qed.
  (** ** Every run is bounded *)
  Fixpoint work (t : thread) : nat :=
    match t with
    | TStart _ _ => 4 | TLoad _ _ => 3 | TJoin _ _ kids => 1 + list_sum (map work kids) | TFail _ _ => 1 | _ => 0
    end.
  Lemma step_work sh t sh' t' : step (sh, t) (sh', t') ->
    work t' + 4 * length (attempted sh) < work t + 4 * length (attempted sh').
  Proof.
    intro H. remember (sh, t) as c eqn:Ec. remember (sh', t') as c' eqn:Ec'. revert sh t sh' t' Ec Ec'.
    induction H as [sh p r|sh p e|sh slot m new|sh sh1 slot m a k k' b H IH|sh slot m kids F P|sh slot m kids F P];
      intros sh0 t0 sh0' t0' E1 E2; inversion E1; inversion E2; subst; clear E1 E2; cbn [attempted work].
    - destruct (load_one p r); cbn [work]; lia.
    - lia.
    - rewrite app_length. assert (forall l, list_sum (map work (map (fun q => TStart q (m_path m)) l)) = 4 * length l) as ->; [|lia].
      induction l as [|x l IH]; [reflexivity|]. cbn [map list_sum fold_right length]. unfold list_sum in IH. cbn [work]. lia.
    - specialize (IH _ _ _ _ eq_refl eq_refl). rewrite !map_app, !list_sum_app. cbn [map list_sum fold_right]. fold (list_sum (map work b)). lia.
    - destruct slot; cbn [attempted]; lia.
    - lia.
  Qed.
  Inductive run_length : nat -> shared * thread -> shared * thread -> Prop :=
  | rl_0 c : run_length 0 c c
  | rl_S n c c' c'' : step c c' -> run_length n c' c'' -> run_length (S n) c c''.
  Lemma run_steps n c c' : run_length n c c' -> steps c c'.
  Proof. induction 1; [apply st_refl|eapply st_step; eauto]. Qed.
  Lemma run_work n c c' : run_length n c c' -> n + work (snd c') + 4 * length (attempted (fst c)) <= work (snd c) + 4 * length (attempted (fst c')).
  Proof.
    induction 1 as [c|n [sh t] [sh1 t1] [sh2 t2] H1 H2 IH]; [lia|]. cbn [fst snd] in *. pose proof (step_work _ _ _ _ H1). lia.
  Qed.
  Lemma attempted_in U sh t : all_modules load_one main U -> steps (no_modules, TLoad None main) (sh, t) -> incl (attempted sh) U.
  Proof.
    intros [U1 U2] H.
    assert (R : forall p r, reachable load_one main p r -> In p U).
    { intros p r X. induction X as [p Hp|q r m p X IH Hq Hp]; [apply U1, Hp|exact (U2 q r m IH Hq p Hp)]. }
    assert (X : forall sh t, steps (no_modules, TLoad None main) (sh, t) ->
      (sourced load_one main t /\ maps_sourced load_one main sh) /\ forall p, In p (attempted sh) -> exists r, reachable load_one main p r).
    { clear sh t H. intros sh t H. eapply (steps_ind2 load_one (fun sh t => (sourced load_one main t /\ maps_sourced load_one main sh) /\ forall p, In p (attempted sh) -> exists r, reachable load_one main p r)); [|exact H|].
      - clear. intros sh t sh' t' H [So A]. split; [eapply sourced_step; eauto|]. destruct So as [So _].
        revert So A. remember (sh, t) as c eqn:Ec. remember (sh', t') as c' eqn:Ec'. revert sh t sh' t' Ec Ec'.
        induction H as [sh p r|sh p e|sh slot m new|sh sh1 slot m a k k' b H IH|sh slot m kids F P|sh slot m kids F P];
          intros sh0 t0 sh0' t0' E1 E2 So A; inversion E1; inversion E2; subst; clear E1 E2; cbn [attempted]; auto.
        + intros p Hp. apply in_app_iff in Hp as [Hp|Hp]; [auto|]. apply (proj2 (reserve_spec _ _)) in Hp. inversion So; subst. exists (m_path m). eapply owner_reaches; eauto; tauto.
        + inversion So; subst. match goal with F : Forall _ _ |- _ => apply Forall_app in F as [_ F]; inversion F; subst end. eapply IH; eauto.
        + destruct slot; cbn [attempted]; auto.
      - split; [split; [constructor; reflexivity|split; intros ? ? []]|intros p []]. }
    intros p Hp. destruct (X _ _ H) as [_ Y]. destruct (Y p Hp) as [r Z]. eauto.
  Qed.
  Lemma run_bounded U n sh t : all_modules load_one main U -> run_length n (no_modules, TLoad None main) (sh, t) -> n <= 3 + 4 * length U.
  Proof.
    intros HU H. pose proof (run_work _ _ _ H) as W. cbn [fst snd work attempted no_modules length] in W.
    pose proof (attempted_in U sh t HU (run_steps _ _ _ H)) as I. destruct (reads_inv_run _ _ _ _ (run_steps _ _ _ H)) as [N _].
    pose proof (NoDup_incl_length N I). lia.
  Qed.
  Lemma run_exists U : all_modules load_one main U -> (forall p r, load_one p r <> NoFuel) -> exists sh t, load_run load_one main sh t.
  Proof.
    intros HU NF.
    assert (X : forall k n sh t, 3 + 4 * length U - n <= k -> run_length n (no_modules, TLoad None main) (sh, t) -> stuck t = false -> exists sh' t', load_run load_one main sh' t').
    { induction k as [|k IH]; intros n sh t Hk R Hs; (destruct (progress t sh Hs) as [F|[sh' [t' St]]]; [exists sh, t; split; [eapply run_steps; eauto|exact F]|]).
      - exfalso. assert (R' : run_length (S n) (no_modules, TLoad None main) (sh', t')).
        { clear -R St. remember (no_modules, TLoad None main) as c. remember (sh, t) as c'. clear Heqc. revert sh t Heqc' St. induction R as [c|n c c1 c2 H1 H2 IHR]; intros sh t E St; subst.
          - eapply rl_S; [exact St|apply rl_0].
          - eapply rl_S; [exact H1|]. eapply IHR; eauto. }
        pose proof (run_bounded U _ _ _ HU R'). lia.
      - assert (R' : run_length (S n) (no_modules, TLoad None main) (sh', t')).
        { clear -R St. remember (no_modules, TLoad None main) as c. remember (sh, t) as c'. clear Heqc. revert sh t Heqc' St. induction R as [c|n c c1 c2 H1 H2 IHR]; intros sh t E St; subst.
          - eapply rl_S; [exact St|apply rl_0].
          - eapply rl_S; [exact H1|]. eapply IHR; eauto. }
        apply (IH (S n) sh' t'); [pose proof (run_bounded U _ _ _ HU R'); lia|exact R'|eapply stuck_step; eauto]. }
    apply (X _ 0 no_modules (TLoad None main) (le_n _)); [apply rl_0|reflexivity].
  Qed.
  (** ** Same end *)
  Lemma final_loaded sh : load_run load_one main sh TDone -> unambiguous load_one main ->
    forall p, (forall m, passoc p (loaded sh) = Some m <-> exists r, reachable load_one main p r /\ load_one p r = Ok m)
      /\ (forall e, passoc p (failed sh) = Some e <-> exists r, reachable load_one main p r /\ load_one p r = Err e).
  Proof.
    intros H U p. pose proof (reachable_known load_one main sh H U) as K. destruct (load_done load_one main sh H) as [_ [N _]]. destruct H as [H _]. destruct (sourced_run _ _ _ _ H) as [_ [Sl Sf]]. split.
    - intro m. split; [intro L; exact (Sl _ _ (passoc_In _ _ _ L))|]. intros [r [R E]].
      destruct (known_cases sh p N (K p r R)) as [[m' [L _]]|[e [L _]]].
      + rewrite L. destruct (Sl _ _ (passoc_In _ _ _ L)) as [r' [R' E']]. rewrite (U p r' r R' R) in E'. congruence.
      + destruct (Sf _ _ (passoc_In _ _ _ L)) as [r' [R' E']]. rewrite (U p r' r R' R) in E'. congruence.
    - intro e. split; [intro L; exact (Sf _ _ (passoc_In _ _ _ L))|]. intros [r [R E]].
      destruct (known_cases sh p N (K p r R)) as [[m' [L _]]|[e' [L _]]].
      + destruct (Sl _ _ (passoc_In _ _ _ L)) as [r' [R' E']]. rewrite (U p r' r R' R) in E'. congruence.
      + rewrite L. destruct (Sf _ _ (passoc_In _ _ _ L)) as [r' [R' E']]. rewrite (U p r' r R' R) in E'. congruence.
  Qed.
End End_.
