(** * LoaderProofs: the loader threads. *)
From Coq Require Import Permutation.
From Verif Require Import Base BaseProofs Csvp Ast AstParser Eval Sheet Loader LoaderSpec.

(** ** Paths and maps *)
Lemma path_eqb_spec a : forall b, reflect (a = b) (path_eqb a b).
Proof.
  induction a as [|x a IH]; intros [|y b]; cbn [path_eqb]; try (constructor; congruence).
  destruct (str_eqb_spec x y) as [->|E]; cbn [andb]; [|constructor; congruence]. destruct (IH b) as [->|E]; constructor; congruence.
Qed.
Lemma path_eqb_refl p : path_eqb p p = true.
Proof. destruct (path_eqb_spec p p); congruence. Qed.
Lemma path_in_spec p l : path_in p l = true <-> In p l.
Proof.
  unfold path_in. rewrite existsb_exists. split.
  - intros [q [H E]]. destruct (path_eqb_spec p q); [congruence|discriminate].
  - intro H. exists p. split; [exact H|apply path_eqb_refl].
Qed.
Lemma path_eq_dec (p q : module_path) : {p = q} + {p <> q}.
Proof. destruct (path_eqb_spec p q); auto. Qed.
Notation pkeys := (map fst).
Lemma passoc_insert_same {A} p (v : A) m : passoc p (pinsert p v m) = Some v.
Proof.
  induction m as [|[q w] m IH]; cbn [pinsert passoc]; [now rewrite path_eqb_refl|].
  destruct (path_eqb p q) eqn:E; cbn [passoc]; [now rewrite path_eqb_refl|]. now rewrite E.
Qed.
Lemma passoc_insert_other {A} p q (v : A) m : q <> p -> passoc q (pinsert p v m) = passoc q m.
Proof.
  intro H. induction m as [|[r w] m IH]; cbn [pinsert passoc].
  - destruct (path_eqb_spec q p); [contradiction|reflexivity].
  - destruct (path_eqb_spec p r) as [->|E]; cbn [passoc].
    + destruct (path_eqb_spec q r); [contradiction|reflexivity].
    + destruct (path_eqb_spec q r); [reflexivity|exact IH].
Qed.
Lemma pinsert_keys {A} p (v : A) m q : In q (pkeys (pinsert p v m)) <-> q = p \/ In q (pkeys m).
Proof.
  induction m as [|[r w] m IH]; cbn [pinsert map fst In]; [intuition|]. destruct (path_eqb_spec p r) as [->|E]; cbn [map fst In]; [intuition|]. rewrite IH. intuition.
Qed.
Lemma pinsert_new {A} p (v : A) m : ~ In p (pkeys m) -> pinsert p v m = m ++ [(p, v)].
Proof.
  induction m as [|[r w] m IH]; intro H; cbn [pinsert app]; [reflexivity|]. cbn [map fst In] in H.
  destruct (path_eqb_spec p r) as [->|E]; [destruct H; auto|]. f_equal. apply IH. intuition.
Qed.
Lemma passoc_keys {A} p (m : list (module_path * A)) : In p (pkeys m) <-> passoc p m <> None.
Proof.
  induction m as [|[r w] m IH]; cbn [map fst In passoc]; [split; [intros []|intro H; now destruct H]|].
  destruct (path_eqb_spec p r) as [->|E]; [split; [discriminate|auto]|]. rewrite <- IH. intuition.
Qed.
Lemma passoc_none {A} p (m : list (module_path * A)) : ~ In p (pkeys m) <-> passoc p m = None.
Proof. rewrite passoc_keys. destruct (passoc p m); split; intro H; try congruence; try (exfalso; apply H; discriminate); intro C; congruence. Qed.
Lemma passoc_In {A} p (v : A) m : passoc p m = Some v -> In (p, v) m.
Proof.
  induction m as [|[r w] m IH]; cbn [passoc]; [discriminate|]. destruct (path_eqb_spec p r) as [->|E]; intro H; [injection H as ->; left; reflexivity|right; auto].
Qed.
Lemma passoc_of_In {A} p (v : A) m : NoDup (pkeys m) -> In (p, v) m -> passoc p m = Some v.
Proof.
  induction m as [|[r w] m IH]; intros N H; [destruct H|]. cbn [map fst] in N. inversion N as [|? ? N1 N2]; subst. cbn [passoc].
  destruct H as [H|H].
  - injection H as -> ->. now rewrite path_eqb_refl.
  - destruct (path_eqb_spec p r) as [->|E]; [|auto]. destruct N1. apply in_map_iff. exists (r, v). auto.
Qed.

(** ** reserve *)
Lemma reserve_spec : forall req att, NoDup (reserve att req)
  /\ (forall p, In p (reserve att req) <-> In p req /\ ~ In p att).
Proof.
  induction req as [|q req IH]; intro att; cbn [reserve].
  - split; [constructor|]. intro p. cbn. tauto.
  - destruct (path_in q att) eqn:E.
    + destruct (IH att) as [N M]. split; [exact N|]. intro p. rewrite M. apply path_in_spec in E. cbn [In]. split; [tauto|].
      intros [[->|H1] H2]; [contradiction|tauto].
    + assert (Q : ~ In q att) by (intro H; apply path_in_spec in H; congruence).
      destruct (IH (q :: att)) as [N M]. split.
      * constructor; [|exact N]. rewrite M. cbn [In]. tauto.
      * intro p. cbn [In]. rewrite M. cbn [In]. split.
        -- intros [->|[H1 H2]]; [tauto|tauto].
        -- intros [[->|H1] H2]; [tauto|]. destruct (path_eq_dec q p) as [->|D]; [tauto|]. right. tauto.
Qed.

(** ** Threads *)
Section ThreadInd.
  Variable P : thread -> Prop.
  Hypothesis H1 : forall p r, P (TStart p r).
  Hypothesis H2 : forall s m, P (TLoad s m).
  Hypothesis H3 : forall s m kids, Forall P kids -> P (TJoin s m kids).
  Hypothesis H4 : forall p e, P (TFail p e).
  Hypothesis H5 : P TDone.
  Hypothesis H6 : P TPanicked.
  Hypothesis H7 : P TStuck.
  Fixpoint thread_induction (t : thread) : P t :=
    match t with
    | TStart p r => H1 p r
    | TLoad s m => H2 s m
    | TJoin s m kids => H3 s m kids ((fix go l := match l return Forall P l with [] => Forall_nil _ | x :: r => Forall_cons _ (thread_induction x) (go r) end) kids)
    | TFail p e => H4 p e
    | TDone => H5
    | TPanicked => H6
    | TStuck => H7
    end.
End ThreadInd.
Definition slot_list (s : option module_path) : list module_path := match s with Some p => [p] | None => [] end.
(** not read yet *)
Fixpoint pending (t : thread) : list module_path :=
  match t with
  | TStart p _ => [p]
  | TJoin _ _ kids => flat_map pending kids
  | _ => []
  end.
(** being worked on *)
Fixpoint active (t : thread) : list module_path :=
  match t with
  | TStart p _ => [p]
  | TLoad s _ => slot_list s
  | TJoin s _ kids => slot_list s ++ flat_map active kids
  | TFail p _ => [p]
  | _ => []
  end.
Fixpoint panics (t : thread) : bool :=
  match t with
  | TPanicked | TStuck => true
  | TJoin _ _ kids => existsb panics kids
  | _ => false
  end.
Lemma finished_lists kids : forallb finished kids = true -> flat_map pending kids = [] /\ flat_map active kids = [] /\ existsb panics kids = existsb panicked kids.
Proof.
  induction kids as [|k kids IH]; intro H; [auto|]. cbn [forallb] in H. apply andb_true_iff in H as [K H]. destruct (IH H) as [A [B C]].
  cbn [flat_map existsb]. rewrite A, B, C. destruct k; try discriminate; auto.
Qed.

Section Threads.
  Variable load_one : module_path -> module_path -> outcome load_failure module.
  Notation step := (step load_one).
  Notation steps := (steps load_one).
  (** what a step adds to the reserved paths *)
  Lemma step_reads sh t sh' t' : step (sh, t) (sh', t') -> exists new,
    attempted sh' = attempted sh ++ new /\ NoDup new /\ (forall p, In p new -> ~ In p (attempted sh))
    /\ Permutation (reads sh' ++ pending t') (reads sh ++ pending t ++ new).
  Proof.
    intro H. remember (sh, t) as c eqn:Ec. remember (sh', t') as c' eqn:Ec'. revert sh t sh' t' Ec Ec'.
    induction H as [sh p r|sh p e|sh slot m new|sh sh1 slot m a k k' b H IH|sh slot m kids F P|sh slot m kids F P];
      intros sh0 t0 sh0' t0' E1 E2; inversion E1; inversion E2; subst; clear E1 E2.
    - exists []. rewrite ?app_nil_r. cbn [attempted reads pending]. repeat (split; [try reflexivity; try constructor; try (intros q [])|]).
      assert (pending (match load_one p r with Ok m => TLoad (Some p) m | Err e => TFail p e | Panic => TPanicked | NoFuel => TStuck end) = []) as -> by (destruct (load_one p r); reflexivity).
      rewrite ?app_nil_r. apply Permutation_refl.
    - exists []. rewrite ?app_nil_r. cbn [attempted reads pending]. repeat (split; [try reflexivity; try constructor; try (intros q [])|]). rewrite ?app_nil_r. apply Permutation_refl.
    - destruct (reserve_spec (m_requires m) (attempted sh0)) as [N M]. exists new. cbn [attempted reads pending]. split; [reflexivity|]. split; [exact N|].
      split; [intros p Hp; apply M in Hp; tauto|]. cbn [app]. apply Permutation_app_head.
      assert (forall l, flat_map pending (map (fun q => TStart q (m_path m)) l) = l) as ->; [|apply Permutation_refl].
      induction l as [|x l IH]; cbn; [reflexivity|now rewrite IH].
    - destruct (IH _ _ _ _ eq_refl eq_refl) as [new [A [N [D P]]]]. exists new. repeat (split; [assumption|]). cbn [pending]. rewrite !flat_map_app. cbn [flat_map].
      transitivity (flat_map pending a ++ (reads sh0' ++ pending k') ++ flat_map pending b).
      { rewrite <- !app_assoc. rewrite (app_assoc (reads sh0')), (app_assoc (flat_map pending a)). rewrite !app_assoc. apply Permutation_app_tail. apply Permutation_app_tail. apply Permutation_app_comm. }
      rewrite P. rewrite <- !app_assoc.
      transitivity (reads sh0 ++ flat_map pending a ++ pending k ++ new ++ flat_map pending b).
      { rewrite !app_assoc. do 3 apply Permutation_app_tail. apply Permutation_app_comm. }
      do 3 apply Permutation_app_head. apply Permutation_app_comm.
    - exists []. rewrite ?app_nil_r. destruct (finished_lists _ F) as [A _]. cbn [pending]. rewrite A.
      split; [destruct slot; cbn [attempted]; now rewrite ?app_nil_r|]. split; [constructor|]. split; [intros q []|]. destruct slot; cbn [reads]; rewrite ?app_nil_r; apply Permutation_refl.
    - exists []. rewrite ?app_nil_r. destruct (finished_lists _ F) as [A _]. cbn [pending]. rewrite A.
      repeat (split; [try reflexivity; try constructor; try (intros q [])|]). rewrite ?app_nil_r; apply Permutation_refl.
  Qed.
  Definition reads_inv (sh : shared) (t : thread) : Prop := NoDup (attempted sh) /\ Permutation (reads sh ++ pending t) (attempted sh).
  Lemma nodup_app_new {A} (a b : list A) : NoDup a -> NoDup b -> (forall x, In x b -> ~ In x a) -> NoDup (a ++ b).
  Proof.
    intros Ha Hb H. induction Ha as [|x a Hx Ha IH]; cbn; [exact Hb|]. constructor.
    - rewrite in_app_iff. intros [C|C]; [contradiction|]. exact (H x C (or_introl eq_refl)).
    - apply IH. intros y Hy C. exact (H y Hy (or_intror C)).
  Qed.
  Lemma reads_inv_step sh t sh' t' : step (sh, t) (sh', t') -> reads_inv sh t -> reads_inv sh' t'.
  Proof.
    intros H [N P]. destruct (step_reads _ _ _ _ H) as [new [A [Nn [D Q]]]]. split.
    - rewrite A. now apply nodup_app_new.
    - rewrite Q, A, app_assoc. now apply Permutation_app_tail.
  Qed.
  Lemma steps_ind2 (I : shared -> thread -> Prop) : (forall sh t sh' t', step (sh, t) (sh', t') -> I sh t -> I sh' t') ->
    forall sh t sh' t', steps (sh, t) (sh', t') -> I sh t -> I sh' t'.
  Proof.
    intros HI sh t sh' t' H. remember (sh, t) as c eqn:Ec. remember (sh', t') as c' eqn:Ec'. revert sh t Ec.
    induction H as [c|c [sh1 t1] c'' H1 H2 IH]; intros sh t Ec Hi; subst.
    - injection Ec as -> ->. exact Hi.
    - eapply IH; eauto.
  Qed.
  Lemma reads_inv_start main : reads_inv no_modules (TLoad None main).
  Proof. split; [constructor|]. cbn. constructor. Qed.
  Lemma reads_inv_run main sh t : steps (no_modules, TLoad None main) (sh, t) -> reads_inv sh t.
  Proof. intro H. eapply steps_ind2; eauto using reads_inv_step, reads_inv_start. Qed.

  (** *** who is where *)
  Notation known sh := (pkeys (loaded sh) ++ pkeys (failed sh)).
  Lemma attempted_grows sh t sh' t' : step (sh, t) (sh', t') -> incl (attempted sh) (attempted sh').
  Proof. intro H. destruct (step_reads _ _ _ _ H) as [new [A _]]. rewrite A. apply incl_appl, incl_refl. Qed.
  Lemma step_places sh t sh' t' : step (sh, t) (sh', t') -> forall ctx,
    NoDup (ctx ++ active t ++ known sh) -> incl (ctx ++ active t ++ known sh) (attempted sh) ->
    NoDup (ctx ++ active t' ++ known sh') /\ incl (ctx ++ active t' ++ known sh') (attempted sh')
    /\ (panics t' = false -> panics t = false /\ incl (active t ++ known sh) (active t' ++ known sh')
          /\ forall p, In p (attempted sh') -> In p (attempted sh) \/ In p (active t' ++ known sh')).
  Proof.
    intro H. remember (sh, t) as c eqn:Ec. remember (sh', t') as c' eqn:Ec'. revert sh t sh' t' Ec Ec'.
    induction H as [sh p r|sh p e|sh slot m new|sh sh1 slot m a k k' b H IH|sh slot m kids F P|sh slot m kids F P];
      intros sh0 t0 sh0' t0' E1 E2 ctx N I; inversion E1; inversion E2; subst; clear E1 E2; cbn [loaded failed attempted].
    - cbn [active] in N, I. destruct (load_one p r); cbn [active panics slot_list]; [repeat split; auto using incl_refl..| |];
        (split; [eapply NoDup_remove_1; exact N|]; split; [intros q Hq; apply I; rewrite in_app_iff in *; cbn [In app]; tauto|discriminate]).
    - cbn [active panics] in *. assert (Np : ~ In p (ctx ++ known sh0)) by (eapply NoDup_remove_2; exact N).
      rewrite pinsert_new by (intro C; apply Np; rewrite !in_app_iff; tauto). rewrite map_app. cbn [map fst]. cbn [app] in *.
      split; [|split].
      + rewrite app_assoc, app_assoc, <- (app_assoc ctx). apply (Permutation_NoDup (l := ctx ++ p :: known sh0)); [|exact N].
        rewrite <- Permutation_middle. apply Permutation_cons_append.
      + intros q Hq. apply I. rewrite !in_app_iff in *. cbn [In] in *. rewrite in_app_iff. tauto.
      + intros _. split; [reflexivity|]. split; [|auto]. intros q Hq. rewrite !in_app_iff. cbn [In] in *. rewrite in_app_iff in Hq. tauto.
    - destruct (reserve_spec (m_requires m) (attempted sh0)) as [Nn M]. fold new in Nn, M. cbn [active panics] in *.
      assert (forall l, flat_map active (map (fun q => TStart q (m_path m)) l) = l) as Fl.
      { induction l as [|x l IH]; cbn; [reflexivity|now rewrite IH]. }
      assert (forall l, existsb panics (map (fun q => TStart q (m_path m)) l) = false) as Fp.
      { induction l as [|x l IH]; cbn; [reflexivity|exact IH]. }
      rewrite Fl. split; [|split].
      + apply (Permutation_NoDup (l := (ctx ++ slot_list slot ++ known sh0) ++ new)).
        * rewrite <- !app_assoc. apply Permutation_app_head, Permutation_app_head.
          rewrite (app_assoc (pkeys (loaded sh0))). apply Permutation_app_comm.
        * apply nodup_app_new; [exact N|exact Nn|]. intros q Hq C. apply M in Hq as [_ Hq]. apply Hq, I, C.
      + intros q Hq. rewrite !in_app_iff in *. assert (X : In q new \/ In q (ctx ++ slot_list slot ++ known sh0)) by (rewrite !in_app_iff; tauto).
        destruct X as [X|X]; [right; exact X|left; apply I, X].
      + intros _. split; [reflexivity|]. split; [intros q Hq; rewrite !in_app_iff in *; tauto|]. intros q Hq. rewrite !in_app_iff in *. tauto.
    - cbn [active panics] in *. rewrite !flat_map_app in *. cbn [flat_map] in *. set (A := flat_map active a) in *. set (B := flat_map active b) in *.
      specialize (IH _ _ _ _ eq_refl eq_refl (ctx ++ slot_list slot ++ A ++ B)).
      assert (P1 : forall X K, Permutation ((ctx ++ slot_list slot ++ A ++ B) ++ X ++ K) (ctx ++ (slot_list slot ++ A ++ X ++ B) ++ K)).
      { intros X K. rewrite <- !app_assoc. do 3 apply Permutation_app_head. rewrite !app_assoc. apply Permutation_app_tail. apply Permutation_app_comm. }
      destruct IH as [I1 [I2 I3]].
      + eapply Permutation_NoDup; [apply Permutation_sym, P1|exact N].
      + intros q Hq. apply I. eapply Permutation_in; [apply P1|exact Hq].
      + split; [eapply Permutation_NoDup; [apply P1|exact I1]|]. split.
        * intros q Hq. apply I2. eapply Permutation_in; [apply Permutation_sym, P1|exact Hq].
        * rewrite !existsb_app. cbn [existsb]. intro Q. apply orb_false_iff in Q as [Qa Q]. apply orb_false_iff in Q as [Qk Qb].
          destruct (I3 Qk) as [Q1 [Q2 Q3]]. rewrite Qa, Q1, Qb. split; [reflexivity|]. split.
          -- intros q Hq. rewrite !in_app_iff in *. assert (X : In q (active k ++ known sh0) -> In q (active k' ++ known sh0')) by apply Q2. rewrite !in_app_iff in X. tauto.
          -- intros q Hq. apply Q3 in Hq. rewrite !in_app_iff in *. tauto.
    - destruct (finished_lists _ F) as [_ [A B]]. cbn [active panics] in *. rewrite A, app_nil_r in *. rewrite B, P. destruct slot as [p|]; cbn [slot_list loaded failed attempted] in *.
      + cbn [app] in *. assert (Np : ~ In p (ctx ++ known sh0)) by (eapply NoDup_remove_2; exact N).
        rewrite pinsert_new by (intro C; apply Np; rewrite !in_app_iff; tauto). rewrite map_app. cbn [map fst].
        split; [|split].
        * apply (Permutation_NoDup (l := ctx ++ p :: known sh0)); [|exact N]. apply Permutation_app_head. rewrite <- app_assoc. cbn [app]. apply Permutation_middle.
        * intros q Hq. apply I. rewrite !in_app_iff in *. cbn [In] in *. rewrite in_app_iff. tauto.
        * intros _. split; [reflexivity|]. split; [|auto]. intros q Hq. rewrite !in_app_iff. cbn [In] in *. rewrite in_app_iff in Hq. tauto.
      + repeat split; auto using incl_refl.
    - destruct (finished_lists _ F) as [_ [A B]]. cbn [active panics] in *. rewrite A, app_nil_r in *. split; [|split].
      + destruct slot as [p|]; cbn [slot_list app] in *; [eapply NoDup_remove_1; exact N|exact N].
      + intros q Hq. apply I. rewrite !in_app_iff in *. cbn [In] in *. tauto.
      + discriminate.
  Qed.
  Definition places_inv (sh : shared) (t : thread) : Prop :=
    NoDup (active t ++ known sh) /\ incl (active t ++ known sh) (attempted sh)
    /\ (panics t = false -> incl (attempted sh) (active t ++ known sh)).
  Lemma places_inv_step sh t sh' t' : step (sh, t) (sh', t') -> places_inv sh t -> places_inv sh' t'.
  Proof.
    intros H [A [B C]]. destruct (step_places _ _ _ _ H [] A B) as [D [E1 G]]. cbn [app] in *. split; [exact D|]. split; [exact E1|].
    intro Q. destruct (G Q) as [G1 [G2 G3]]. intros q Hq. apply G3 in Hq as [Hq|Hq]; [|exact Hq]. apply G2. exact (C G1 q Hq).
  Qed.
  Lemma places_inv_run main sh t : steps (no_modules, TLoad None main) (sh, t) -> places_inv sh t.
  Proof.
    intro H. eapply steps_ind2; [exact places_inv_step|exact H|]. split; [constructor|]. split; [intros q []|]. intros _ q [].
  Qed.

  (** *** where things come from *)
  Variable main : module.
  Notation reachable := (reachable load_one main).
  Definition from_file (p : module_path) (o : outcome load_failure module) : Prop := exists r, reachable p r /\ load_one p r = o.
  Definition owner (slot : option module_path) (m : module) : Prop := match slot with Some p => from_file p (Ok m) | None => m = main end.
  Inductive sourced : thread -> Prop :=
  | so_start p r : reachable p r -> sourced (TStart p r)
  | so_load s m : owner s m -> sourced (TLoad s m)
  | so_join s m kids : owner s m -> Forall sourced kids -> sourced (TJoin s m kids)
  | so_fail p e : from_file p (Err e) -> sourced (TFail p e)
  | so_done : sourced TDone
  | so_panicked : sourced TPanicked
  | so_stuck : sourced TStuck.
  Definition maps_sourced (sh : shared) : Prop :=
    (forall p m, In (p, m) (loaded sh) -> from_file p (Ok m)) /\ (forall p e, In (p, e) (failed sh) -> from_file p (Err e)).
  Lemma pinsert_In {A} p (v : A) m q w : In (q, w) (pinsert p v m) -> (q = p /\ w = v) \/ In (q, w) m.
  Proof.
    induction m as [|[r u] m IH]; cbn [pinsert In]; [intros [H|[]]; injection H as <- <-; auto|].
    destruct (path_eqb_spec p r) as [->|E]; cbn [In].
    - intros [H|H]; [injection H as <- <-; auto|auto].
    - intros [H|H]; [auto|]. destruct (IH H); auto.
  Qed.
  Lemma owner_reaches s m p : owner s m -> In p (m_requires m) -> reachable p (m_path m).
  Proof. destruct s as [q|]; cbn [owner]; [intros [r [H1 H2]] H; eapply r_import; eauto|intros -> H; now apply r_main]. Qed.
  Lemma sourced_step sh t sh' t' : step (sh, t) (sh', t') -> sourced t /\ maps_sourced sh -> sourced t' /\ maps_sourced sh'.
  Proof.
    intro H. remember (sh, t) as c eqn:Ec. remember (sh', t') as c' eqn:Ec'. revert sh t sh' t' Ec Ec'.
    induction H as [sh p r|sh p e|sh slot m new|sh sh1 slot m a k k' b H IH|sh slot m kids F P|sh slot m kids F P];
      intros sh0 t0 sh0' t0' E1 E2 [St [Sl Sf]]; inversion E1; inversion E2; subst; clear E1 E2; unfold maps_sourced; cbn [loaded failed].
    - inversion St; subst. split; [|split; assumption]. destruct (load_one p r) as [m|e| |] eqn:E; constructor; exists r; auto.
    - inversion St; subst. split; [constructor|]. split; [assumption|]. intros q v Hq. apply pinsert_In in Hq as [[-> ->]|Hq]; auto.
    - inversion St; subst. split; [|split; assumption]. constructor; [assumption|]. apply Forall_forall. intros x Hx. apply in_map_iff in Hx as [q [<- Hq]].
      constructor. apply (proj2 (reserve_spec _ _)) in Hq. eapply owner_reaches; eauto; tauto.
    - inversion St; subst. match goal with F : Forall sourced _ |- _ => apply Forall_app in F as [Fa F]; inversion F as [|? ? Fk Fb]; subst end.
      destruct (IH _ _ _ _ eq_refl eq_refl (conj Fk (conj Sl Sf))) as [I1 I2]. split; [|exact I2]. constructor; [assumption|]. apply Forall_app. auto.
    - inversion St; subst. split; [constructor|]. destruct slot as [p|]; cbn [loaded failed]; [|split; assumption]. split; [|assumption].
      intros q v Hq. apply pinsert_In in Hq as [[-> ->]|Hq]; auto.
    - split; [constructor|split; assumption].
  Qed.
  Lemma sourced_run sh t : steps (no_modules, TLoad None main) (sh, t) -> sourced t /\ maps_sourced sh.
  Proof.
    intro H. eapply (steps_ind2 (fun sh t => sourced t /\ maps_sourced sh)); [exact sourced_step|exact H|].
    split; [constructor; reflexivity|]. split; intros ? ? [].
  Qed.

  (** *** imports of what is there have been attempted *)
  Inductive covered (att : list module_path) : thread -> Prop :=
  | co_join s m kids : incl (m_requires m) att -> Forall (covered att) kids -> covered att (TJoin s m kids)
  | co_start p r : covered att (TStart p r)
  | co_load p m : covered att (TLoad (Some p) m)
  | co_main : covered att (TLoad None main)
  | co_fail p e : covered att (TFail p e)
  | co_done : covered att TDone
  | co_panicked : covered att TPanicked
  | co_stuck : covered att TStuck.
  Definition maps_covered (sh : shared) : Prop := forall p m, In (p, m) (loaded sh) -> incl (m_requires m) (attempted sh).
  Lemma covered_mono att att' : incl att att' -> forall t, covered att t -> covered att' t.
  Proof.
    intro I. induction t using thread_induction; intro C; inversion C; subst; constructor.
    - eapply incl_tran; eauto.
    - match goal with F : Forall (covered att) _ |- _ => rename F into Fc end. rewrite Forall_forall in *. auto.
  Qed.
  Lemma reserve_covers att req : incl req (att ++ reserve att req).
  Proof.
    intros p Hp. rewrite in_app_iff, (proj2 (reserve_spec req att)). destruct (in_dec path_eq_dec p att); auto.
  Qed.
  Lemma covered_step sh t sh' t' : step (sh, t) (sh', t') -> covered (attempted sh) t /\ maps_covered sh -> covered (attempted sh') t' /\ maps_covered sh'.
  Proof.
    intro H. pose proof (attempted_grows _ _ _ _ H) as G. revert G. remember (sh, t) as c eqn:Ec. remember (sh', t') as c' eqn:Ec'. revert sh t sh' t' Ec Ec'.
    induction H as [sh p r|sh p e|sh slot m new|sh sh1 slot m a k k' b H IH|sh slot m kids F P|sh slot m kids F P];
      intros sh0 t0 sh0' t0' E1 E2 G [Ct Cm]; inversion E1; inversion E2; subst; clear E1 E2; unfold maps_covered in *; cbn [loaded failed attempted] in *.
    - split; [|assumption]. destruct (load_one p r); constructor.
    - split; [constructor|assumption].
    - split.
      + constructor; [apply reserve_covers|]. apply Forall_forall. intros x Hx. apply in_map_iff in Hx as [q [<- Hq]]. constructor.
      + intros p m' Hp. eapply incl_tran; [eapply Cm; eauto|exact G].
    - inversion Ct; subst. match goal with F : Forall (covered _) _ |- _ => apply Forall_app in F as [Fa F]; inversion F as [|? ? Fk Fb]; subst end.
      destruct (IH _ _ _ _ eq_refl eq_refl G (conj Fk Cm)) as [I1 I2]. split; [|exact I2]. constructor.
      + eapply incl_tran; eauto.
      + apply Forall_app. split; [|constructor; [exact I1|]]; (rewrite Forall_forall in *; intros x Hx; eapply covered_mono; [exact G|]; auto).
    - inversion Ct; subst. split; [constructor|]. destruct slot as [p|]; cbn [loaded attempted]; [|assumption].
      intros q v Hq. apply pinsert_In in Hq as [[-> ->]|Hq]; eauto.
    - split; [constructor|assumption].
  Qed.
  Lemma covered_run sh t : steps (no_modules, TLoad None main) (sh, t) -> covered (attempted sh) t /\ maps_covered sh.
  Proof.
    intro H. eapply (steps_ind2 (fun sh t => covered (attempted sh) t /\ maps_covered sh)); [exact covered_step|exact H|].
    split; [constructor|]. intros ? ? [].
  Qed.
  Lemma main_covered sh t : steps (no_modules, TLoad None main) (sh, t) -> t = TLoad None main \/ incl (m_requires main) (attempted sh).
  Proof.
    intro H. assert (X : (t = TLoad None main \/ (exists kids, t = TJoin None main kids /\ incl (m_requires main) (attempted sh)) \/ (finished t = true /\ incl (m_requires main) (attempted sh)))); [|intuition; firstorder].
    eapply (steps_ind2 (fun sh t => t = TLoad None main \/ (exists kids, t = TJoin None main kids /\ incl (m_requires main) (attempted sh)) \/ (finished t = true /\ incl (m_requires main) (attempted sh)))); [|exact H|auto].
    clear. intros sh t sh' t' H I. pose proof (attempted_grows _ _ _ _ H) as G. destruct I as [->|[[kids [-> I]]|[F I]]].
    - inversion H; subst. right. left. eexists. split; [reflexivity|]. cbn [attempted]. apply reserve_covers.
    - right. inversion H; subst; [left; eexists; split; [reflexivity|eapply incl_tran; eauto]|right; split; [reflexivity|exact I]..].
    - destruct t; try discriminate; inversion H.
  Qed.

  (** *** at the end *)
  Lemma load_done sh : load_run load_one main sh TDone ->
    (forall p, In p (reads sh) <-> In p (known sh)) /\ NoDup (known sh)
    /\ incl (m_requires main) (known sh)
    /\ (forall p m, passoc p (loaded sh) = Some m -> incl (m_requires m) (known sh)).
  Proof.
    intros [H _]. destruct (reads_inv_run _ _ _ H) as [_ R]. destruct (places_inv_run _ _ _ H) as [P1 [P2 P3]]. destruct (covered_run _ _ H) as [_ C].
    cbn [pending active app] in *. rewrite app_nil_r in R. specialize (P3 eq_refl).
    assert (K : forall p, In p (attempted sh) <-> In p (known sh)) by (intro p; split; [apply P3|apply P2]).
    split; [|split; [exact P1|split]].
    - intro p. rewrite <- K. split; intro Q; [eapply Permutation_in; [exact R|exact Q]|eapply Permutation_in; [apply Permutation_sym, R|exact Q]].
    - destruct (main_covered _ _ H) as [D|D]; [discriminate|]. intros p Hp. apply K, D, Hp.
    - intros p m Hp q Hq. apply K. apply passoc_In in Hp. exact (C _ _ Hp q Hq).
  Qed.
  Lemma known_cases sh p : NoDup (known sh) -> In p (known sh) ->
    (exists m, passoc p (loaded sh) = Some m /\ passoc p (failed sh) = None) \/ (exists e, passoc p (failed sh) = Some e /\ passoc p (loaded sh) = None).
  Proof.
    intros N H. apply in_app_iff in H as [H|H].
    - left. destruct (passoc p (loaded sh)) as [m|] eqn:E; [|apply passoc_keys in H; congruence]. exists m. split; [reflexivity|].
      apply passoc_none. intro C. apply in_split in H as [a [b H]]. rewrite H in N. rewrite <- app_assoc in N. cbn [app] in N. apply NoDup_remove_2 in N. apply N. rewrite !in_app_iff. auto.
    - right. destruct (passoc p (failed sh)) as [e|] eqn:E; [|apply passoc_keys in H; congruence]. exists e. split; [reflexivity|].
      apply passoc_none. intro C. apply in_split in H as [a [b H]]. rewrite H in N. rewrite app_assoc in N. apply NoDup_remove_2 in N. apply N. rewrite !in_app_iff. auto.
  Qed.
  Lemma loaded_nodup sh t : steps (no_modules, TLoad None main) (sh, t) -> NoDup (pkeys (loaded sh)) /\ NoDup (pkeys (failed sh)).
  Proof.
    intro H. destruct (places_inv_run _ _ _ H) as [P1 _]. clear H. revert P1. generalize (active t). intros a. induction a as [|x a IH]; cbn [app]; intro N.
    - induction (pkeys (loaded sh)) as [|y l IH]; cbn [app] in N; [split; [constructor|exact N]|]. inversion N as [|? ? N1 N2]; subst. destruct (IH N2) as [I1 I2].
      split; [|exact I2]. constructor; [|exact I1]. intro C. apply N1. apply in_app_iff. auto.
    - inversion N; subst. auto.
  Qed.
  Lemma reachable_known sh : load_run load_one main sh TDone -> unambiguous load_one main ->
    forall p r, reachable p r -> In p (known sh).
  Proof.
    intros H U p r R. destruct (load_done sh H) as [_ [N [Cm Cl]]]. destruct H as [H _]. destruct (sourced_run _ _ H) as [_ [Sl Sf]].
    induction R as [p Hp|q r m p R IH Hq Hp]; [apply Cm, Hp|].
    destruct (known_cases sh q N IH) as [[m' [L _]]|[e [L _]]].
    - destruct (Sl _ _ (passoc_In _ _ _ L)) as [r' [R' E]]. rewrite (U q r' r R' R), Hq in E. injection E as ->. exact (Cl _ _ L p Hp).
    - destruct (Sf _ _ (passoc_In _ _ _ L)) as [r' [R' E]]. rewrite (U q r' r R' R), Hq in E. discriminate.
  Qed.
End Threads.
