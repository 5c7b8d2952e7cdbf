(** * HistoryProofs: object files of a library hold what the sources mean. *)
From Verif Require Import Base BaseProofs Csvp Ast AstProofs Eval Options CellParser AstParser Sheet SheetProofs2 ModuleProofs Loader LoaderSpec LoaderProofs LoaderProofs2 LoaderProofs3 PropLoader PropCache HistorySpec.

(** *** merging again *)
Definition covered (sc other : scope) : Prop :=
  forall e, In e (exports other) -> (assoc e (variables other) <> None -> assoc e (variables sc) <> None) /\ (assoc e (functions other) <> None -> assoc e (functions sc) <> None).
Lemma insert_new_known e (v : option node) l : (v <> None -> assoc e l <> None) -> insert_new e v l = l.
Proof. unfold insert_new. destruct v as [v|]; [|reflexivity]. intro H. unfold has_key. destruct (assoc e l) eqn:Q; [reflexivity|exfalso; apply H; [discriminate|reflexivity]]. Qed.
Lemma scope_merge_covered sc other : covered sc other -> scope_merge sc other = sc.
Proof.
  unfold scope_merge, covered. generalize (exports other). intro es. induction es as [|e es IH]; intro C; cbn [fold_left]; [reflexivity|].
  assert (Q : merge_export other sc e = sc). { destruct (C e (or_introl eq_refl)) as [A B]. unfold merge_export. rewrite !insert_new_known by assumption. destruct sc; reflexivity. }
  rewrite Q. apply IH. intros e' I. apply C. right. exact I.
Qed.
Definition grows (sc sc' : scope) : Prop := (forall e, assoc e (variables sc) <> None -> assoc e (variables sc') <> None) /\ (forall e, assoc e (functions sc) <> None -> assoc e (functions sc') <> None).
Lemma grows_trans a b c : grows a b -> grows b c -> grows a c.
Proof. intros [A B] [C D]. split; intros; auto. Qed.
Lemma scope_merge_grows sc other : grows sc (scope_merge sc other).
Proof. split; intros e H; destruct (scope_merge_spec other (exports other) sc e) as [A [B _]]; cbn zeta in *; unfold scope_merge; [rewrite A; destruct (assoc e (variables sc))|rewrite B; destruct (assoc e (functions sc))]; try contradiction; discriminate. Qed.
Lemma scope_merge_covers sc other : covered (scope_merge sc other) other.
Proof.
  intros e I. destruct (scope_merge_spec other (exports other) sc e) as [A [B _]]. cbn zeta in *. unfold scope_merge. rewrite A, B. replace (str_in e (exports other)) with true by (symmetry; apply str_in_spec, I).
  split; intro H; [destruct (assoc e (variables sc))|destruct (assoc e (functions sc))]; congruence.
Qed.
Lemma covered_grows a b o : covered a o -> grows a b -> covered b o.
Proof. intros C [G1 G2] e I. destruct (C e I) as [A B]. split; auto. Qed.
Lemma merge_scopes_grows scopes : forall req sc sc', merge_scopes scopes req sc = Some sc' -> grows sc sc' /\ forall q, In q req -> exists s, passoc q scopes = Some s /\ covered sc' s.
Proof.
  induction req as [|p req IH]; intros sc sc' H; cbn [merge_scopes] in H.
  - injection H as <-. split; [split; auto|intros q []].
  - destruct (passoc p scopes) as [d|] eqn:P; [|discriminate]. destruct (IH _ _ H) as [G C]. split; [eapply grows_trans; [apply scope_merge_grows|exact G]|].
    intros q [<-|I]; [|auto]. exists d. split; [exact P|]. eapply covered_grows; [apply scope_merge_covers|exact G].
Qed.
Lemma merge_scopes_again scopes : forall req sc, (forall q, In q req -> exists s, passoc q scopes = Some s /\ covered sc s) -> merge_scopes scopes req sc = Some sc.
Proof.
  induction req as [|p req IH]; intros sc H; cbn [merge_scopes]; [reflexivity|]. destruct (H p (or_introl eq_refl)) as [s [P C]]. rewrite P, scope_merge_covered by exact C. apply IH. intros q I. apply H. right. exact I.
Qed.
Lemma merge_scopes_ext s1 s2 : forall req sc, (forall q, In q req -> passoc q s1 = passoc q s2) -> merge_scopes s1 req sc = merge_scopes s2 req sc.
Proof. induction req as [|p req IH]; intros sc H; cbn [merge_scopes]; [reflexivity|]. rewrite (H p (or_introl eq_refl)). destruct (passoc p s2); [|reflexivity]. apply IH. intros q I. apply H. right. exact I. Qed.
Lemma assoc_insert_keeps {A} k (v : A) l e : assoc e l <> None -> assoc e (assoc_insert k v l) <> None.
Proof. intro H. destruct (str_eqb_spec e k) as [->|N]; [rewrite assoc_insert_same; discriminate|rewrite assoc_insert_other by exact N; exact H]. Qed.
Lemma eval_definitions_grows fuel ord vars orig : forall ks sc sc', eval_definitions fuel ord vars ks orig sc = Ok sc' -> grows sc sc'.
Proof.
  induction ks as [|k ks IH]; intros sc sc' H; cbn [eval_definitions] in H; [injection H as <-; split; auto|]. destruct (assoc k orig) as [n|]; [|auto].
  apply bind_ok in H as [n' [_ H]]. apply IH in H. eapply grows_trans; [|exact H]. destruct vars; split; intros e Q; cbn [variables functions]; try exact Q; apply assoc_insert_keeps, Q.
Qed.
Lemma eval_scope_grows E p sc sc' : eval_scope E p sc = Ok sc' -> grows sc sc'.
Proof. unfold eval_scope. intro H. apply bind_ok in H as [s1 [H1 H]]. eapply grows_trans; eapply eval_definitions_grows; eauto. Qed.

Lemma premove_other {A} p q (l : list (module_path * A)) : q <> p -> passoc q (premove p l) = passoc q l.
Proof.
  intro N. induction l as [|[r v] l IH]; cbn [premove passoc]; [reflexivity|]. destruct (path_eqb_spec p r) as [->|D]; [destruct (path_eqb_spec q r); [contradiction|reflexivity]|]. cbn [passoc]. rewrite IH. reflexivity.
Qed.
Lemma merge_required_known : forall req ld sc, NoDup req -> (forall q, In q req -> passoc q ld <> None) -> exists sc', merge_required req ld sc = Some sc'.
Proof.
  induction req as [|p req IH]; intros ld sc N H; cbn [merge_required]; [eauto|]. inversion N as [|? ? Np Nr]; subst. destruct (passoc p ld) as [m|] eqn:P; [|destruct (H p (or_introl eq_refl) P)].
  apply IH; [exact Nr|]. intros q I. rewrite premove_other by (intros ->; contradiction). apply H. right. exact I.
Qed.
Lemma merge_required_ext : forall req l1 l2 sc, NoDup req -> (forall q, In q req -> passoc q l1 = passoc q l2) -> merge_required req l1 sc = merge_required req l2 sc.
Proof.
  induction req as [|p req IH]; intros l1 l2 sc N H; cbn [merge_required]; [reflexivity|]. inversion N as [|? ? Np Nr]; subst. rewrite (H p (or_introl eq_refl)). destruct (passoc p l2) as [m|]; [|reflexivity].
  apply IH; [exact Nr|]. intros q I. rewrite !premove_other by (intros ->; contradiction). apply H. right. exact I.
Qed.
(** no thread panics if every module can be loaded *)
Section NoPanic.
  Variable load_one : module_path -> module_path -> outcome load_failure module.
  Variable main : module.
  Hypothesis Ok_all : forall p r, reachable load_one main p r -> exists m, load_one p r = Ok m.
  Lemma panics_step sh t sh' t' : step load_one (sh, t) (sh', t') -> sourced load_one main t -> panics t = false -> panics t' = false.
  Proof.
    intro H. remember (sh, t) as c eqn:Ec. remember (sh', t') as c' eqn:Ec'. revert sh t sh' t' Ec Ec'.
    induction H as [sh p r|sh p e|sh slot m new|sh sh1 slot m a k k' b H IH|sh slot m kids Fk P|sh slot m kids Fk P];
      intros sh0 t0 sh0' t0' E1 E2 St Hs; inversion E1; inversion E2; subst; clear E1 E2; try reflexivity.
    - inversion St; subst. destruct (Ok_all p r) as [m Q]; [assumption|]. rewrite Q. reflexivity.
    - cbn [panics]. induction new as [|x l IHl]; [reflexivity|exact IHl].
    - inversion St; subst. match goal with X : Forall _ _ |- _ => apply Forall_app in X as [Fa X]; inversion X as [|? ? Fk Fb]; subst end.
      cbn [panics] in *. rewrite existsb_app in *. cbn [existsb] in *. apply orb_false_iff in Hs as [Ha Hs]. apply orb_false_iff in Hs as [Hk Hb].
      rewrite Ha, Hb, (IH _ _ _ _ eq_refl eq_refl Fk Hk). reflexivity.
    - destruct (finished_lists _ Fk) as [_ [_ B]]. cbn [panics] in Hs. congruence.
  Qed.
  Lemma run_no_panic sh t : load_run load_one main sh t -> t = TDone.
  Proof.
    intros [R Fi]. assert (X : panics t = false).
    { assert (Y : (sourced load_one main t /\ maps_sourced load_one main sh) /\ panics t = false); [|apply Y].
      refine (steps_ind2 load_one (fun sh t => (sourced load_one main t /\ maps_sourced load_one main sh) /\ panics t = false) _ _ _ _ _ R _).
      - intros sh0 t0 sh1 t1 St [I1 I2]. split; [eapply sourced_step; eauto|eapply panics_step; [exact St|apply I1|exact I2]].
      - split; [|reflexivity]. split; [constructor; reflexivity|]. split; intros ? ? []. }
    destruct t; try discriminate; reflexivity.
  Qed.
End NoPanic.

(** *** meanings *)
Lemma all_some_map {A B} (g : A -> option B) l : forall r, all_some (map g l) = Some r -> Forall2 (fun x y => g x = Some y) l r.
Proof.
  induction l as [|x l IH]; intros r H; cbn [map all_some] in H; [injection H as <-; constructor|]. destruct (g x) as [y|] eqn:G; [|discriminate]. destruct (all_some (map g l)) as [r'|]; [|discriminate]. injection H as <-. constructor; auto.
Qed.
Lemma all_some_all {A B} (g : A -> option B) l r : Forall2 (fun x y => g x = Some y) l r -> all_some (map g l) = Some r.
Proof. induction 1 as [|x y l r G _ IH]; cbn [map all_some]; [reflexivity|]. rewrite G, IH. reflexivity. Qed.
Lemma meaning_mono E F : forall n p f sc, meaning n E F p f = Some sc -> meaning (S n) E F p f = Some sc.
Proof.
  induction n as [|n IH]; intros p f sc H; [discriminate|]. remember (S n) as k. rewrite Heqk in H. cbn [meaning] in H |- *. destruct (load_from_source E F p f) as [m| | |]; try discriminate.
  destruct (all_some (map _ (m_requires m))) as [scopes|] eqn:A; [|discriminate]. apply all_some_map in A.
  replace (all_some (map (fun q => option_map (pair q) (meaning k E F q (filename_relative_to q p))) (m_requires m))) with (Some scopes); [exact H|]. symmetry. apply all_some_all. subst k.
  clear -A IH. induction A as [|q s l r G _ IHA]; constructor; [|exact IHA]. cbn beta in *. destruct (meaning n E F q (filename_relative_to q p)) as [sq|] eqn:M; [|discriminate]. rewrite (IH _ _ _ M). exact G.
Qed.
Lemma meaning_le E F n k p f sc : n <= k -> meaning n E F p f = Some sc -> meaning k E F p f = Some sc.
Proof. intros L H. induction L; [exact H|apply meaning_mono, IHL]. Qed.
Lemma meaning_unique E F n k p f s1 s2 : meaning n E F p f = Some s1 -> meaning k E F p f = Some s2 -> s1 = s2.
Proof. intros A B. apply (meaning_le E F n (n + k)) in A; [|lia]. apply (meaning_le E F k (n + k)) in B; [|lia]. congruence. Qed.
Lemma passoc_pairs (g : module_path -> option scope) : forall req scopes, Forall2 (fun q y => option_map (pair q) (g q) = Some y) req scopes -> forall q, In q req -> passoc q scopes = g q.
Proof.
  intros req scopes H. induction H as [|x y req scopes G _ IH]; intros q I; [destruct I|]. destruct (g x) as [s|] eqn:Gx; [|discriminate]. injection G as <-. cbn [passoc].
  destruct (path_eqb_spec q x) as [->|N]; [congruence|]. destruct I as [->|I]; [contradiction|auto].
Qed.
Lemma meaning_inv E F n p f sc : meaning (S n) E F p f = Some sc -> exists m, load_from_source E F p f = Ok m
  /\ (forall q, In q (m_requires m) -> exists s, meaning n E F q (filename_relative_to q p) = Some s)
  /\ forall scopes, (forall q, In q (m_requires m) -> passoc q scopes = meaning n E F q (filename_relative_to q p)) ->
     (exists s0, merge_scopes scopes (rev (m_requires m)) (m_scope m) = Some s0 /\ eval_scope E p s0 = Ok sc) /\ merge_scopes scopes (rev (m_requires m)) sc = Some sc.
Proof.
  cbn [meaning]. destruct (load_from_source E F p f) as [m| | |]; try discriminate. destruct (all_some (map _ (m_requires m))) as [scopes|] eqn:A; [|discriminate]. apply all_some_map in A.
  destruct (merge_scopes scopes (rev (m_requires m)) (m_scope m)) as [s0|] eqn:M; [|discriminate]. destruct (eval_scope E p s0) as [s| | |] eqn:V; try discriminate. intros [= <-].
  exists m. split; [reflexivity|]. split.
  - intros q I. clear -A I. induction A as [|x y req scopes G _ IH]; [destruct I|]. destruct I as [->|I]; [|auto]. destruct (meaning n E F q _); [eauto|discriminate].
  - intros sc2 H. assert (X : forall q, In q (rev (m_requires m)) -> passoc q scopes = passoc q sc2) by (intros q I; apply in_rev in I; rewrite (H _ I); apply (passoc_pairs (fun q => meaning n E F q (filename_relative_to q p)) _ _ A q I)).
    split; [exists s0; split; [rewrite <- M; symmetry; apply merge_scopes_ext, X|exact V]|]. apply merge_scopes_again. destruct (merge_scopes_grows _ _ _ _ M) as [_ C].
    intros q I. destruct (C q I) as [d [P Q]]. exists d. split; [rewrite <- (X q I); exact P|]. eapply covered_grows; [exact Q|eapply eval_scope_grows, V].
Qed.

(** *** the same sources and the same compiler *)
Lemma load_source_of E1 E2 F1 F2 p f : same_compiler E1 E2 -> sources F2 f = sources F1 f -> load_from_source E2 F2 p f = load_from_source E1 F1 p f.
Proof. intros [A [B _]] S. unfold load_from_source. rewrite S, A, B. reflexivity. Qed.
Lemma eval_scope_of E1 E2 p sc : same_compiler E1 E2 -> eval_scope E2 p sc = eval_scope E1 p sc.
Proof. intros [_ [_ [A [B C]]]]. unfold eval_scope. rewrite A, B, C. reflexivity. Qed.
Lemma object_decodes F f m : load_from_object F f = Some m -> exists t, objects F f = Some (ODecoded m, t).
Proof. unfold load_from_object. destruct (objects F f) as [[[x|] t]|]; try discriminate. intros [= <-]. eauto. Qed.

(** every import has been loaded or has failed, whatever modules are loaded with *)
Lemma every_import_recorded l1 main sh : load_run l1 main sh TDone -> forall p, (In p (m_requires main) \/ exists q m, passoc q (loaded sh) = Some m /\ In p (m_requires m)) ->
  (exists m, passoc p (loaded sh) = Some m) \/ exists e r, reachable l1 main p r /\ l1 p r = Err e.
Proof.
  intros H p Hp. destruct (load_done _ _ _ H) as [R [N [Cm Cl]]]. destruct H as [H _]. destruct (sourced_run _ _ _ _ H) as [_ [Sl Sf]].
  assert (K : In p (map fst (loaded sh) ++ map fst (failed sh))) by (destruct Hp as [Hp|[q [m [L Hp]]]]; [apply Cm, Hp|exact (Cl q m L p Hp)]).
  destruct (known_cases sh p N K) as [[m [L1 L2]]|[e [L1 L2]]]; [left; eauto|]. right. destruct (Sf _ _ (passoc_In _ _ _ L1)) as [r [A B]]. exists e, r. auto.
Qed.
Section Library.
  Variables (E0 : env) (F0 : fs) (Lib : module_path -> file -> Prop).
  Hypothesis L : library E0 F0 Lib.
  (** [p] is a module of the library with this source and this meaning *)
  Definition good (p : module_path) (m0 : module) (sc : scope) : Prop :=
    exists f n, Lib p f /\ load_from_source E0 F0 p f = Ok m0 /\ meaning n E0 F0 p f = Some sc.
  Lemma good_exists p f : Lib p f -> exists m0 sc, good p m0 sc /\ load_from_source E0 F0 p f = Ok m0.
  Proof.
    intro H. destruct L as [_ [_ L3]]. destruct (L3 _ _ H) as [[n [sc [M _]]] _]. destruct n as [|n]; [discriminate|]. destruct (meaning_inv _ _ _ _ _ _ M) as [m [Lm _]].
    exists m, sc. split; [exists f, (S n); auto|exact Lm].
  Qed.
  Lemma good_unique p m1 m2 s1 s2 : good p m1 s1 -> good p m2 s2 -> m1 = m2 /\ s1 = s2.
  Proof. intros [f [n [A [B C]]]] [f' [n' [A' [B' C']]]]. destruct L as [L1 _]. pose proof (L1 _ _ _ A A'). subst f'. split; [congruence|eapply meaning_unique; eauto]. Qed.
  Lemma good_shape p m0 sc : good p m0 sc -> m_path m0 = p /\ m_needs_eval m0 = true /\ m_dirty m0 = false /\ m_version m0 = e_version E0 /\ Lib p (m_file m0).
  Proof. intros [f [n [A [B _]]]]. destruct (from_source_shape _ _ _ _ _ B) as [S1 [S2 [S3 [S4 S5]]]]. subst f. auto. Qed.
  Lemma good_imports p m0 sc q : good p m0 sc -> In q (m_requires m0) -> exists mq sq, good q mq sq.
  Proof. intros [f [n [A [B _]]]] I. destruct L as [_ [_ L3]]. destruct (L3 _ _ A) as [_ C]. specialize (C _ _ B I). destruct (good_exists _ _ C) as [mq [sq [G _]]]. eauto. Qed.
  Lemma good_step p m0 sc scopes : good p m0 sc -> (forall q mq sq, In q (m_requires m0) -> good q mq sq -> passoc q scopes = Some sq) ->
    (exists s0, merge_scopes scopes (rev (m_requires m0)) (m_scope m0) = Some s0 /\ eval_scope E0 p s0 = Ok sc) /\ merge_scopes scopes (rev (m_requires m0)) sc = Some sc /\ eval_scope E0 p sc = Ok sc.
  Proof.
    intros G H. pose proof G as [f [n [A [B C]]]]. destruct n as [|n]; [discriminate|]. destruct (meaning_inv _ _ _ _ _ _ C) as [m [Lm [K1 K2]]]. rewrite B in Lm. injection Lm as <-.
    destruct (K2 scopes) as [X Y].
    - intros q I. destruct (K1 _ I) as [s M]. rewrite M. destruct L as [_ [_ L3]]. destruct (L3 _ _ A) as [_ D]. specialize (D _ _ B I). destruct (good_exists _ _ D) as [mq [sq [Gq Lq]]].
      rewrite (H _ _ _ I Gq). f_equal. destruct Gq as [f' [n' [A' [_ C']]]]. destruct L as [L1 _]. pose proof (L1 _ _ _ D A'). subst f'. eapply meaning_unique; eauto.
    - split; [exact X|]. split; [exact Y|]. destruct L as [_ [_ L3]]. destruct (L3 _ _ A) as [[n' [s' [M' Q]]] _]. rewrite (meaning_unique _ _ _ _ _ _ _ _ C M'). exact Q.
  Qed.
  (** no module of the library imports itself *)
  Lemma good_descends p m0 n f q : Lib p f -> load_from_source E0 F0 p f = Ok m0 -> meaning (S n) E0 F0 p f <> None -> In q (m_requires m0) -> Lib q (filename_relative_to q p) /\ meaning n E0 F0 q (filename_relative_to q p) <> None.
  Proof.
    intros A B C I. split; [destruct L as [_ [_ L3]]; destruct (L3 _ _ A) as [_ D]; exact (D _ _ B I)|]. destruct (meaning (S n) E0 F0 p f) as [sc|] eqn:M; [|contradiction].
    destruct (meaning_inv _ _ _ _ _ _ M) as [m [Lm [K1 _]]]. rewrite B in Lm. injection Lm as <-. destruct (K1 _ I) as [s Q]. congruence.
  Qed.

  (** the files: library sources as they were, library objects hold meanings *)
  Definition faithful (F : fs) : Prop :=
    (forall p f, Lib p f -> sources F f = sources F0 f)
    /\ forall p f m t, Lib p f -> objects F f = Some (ODecoded m, t) -> (exists m0 sc, good p m0 sc /\ m = with_scope m0 sc) /\ forall text t', sources F0 f = Some (text, t') -> t' <= t.
  (** an object of a main module *)
  Definition a_main (m : module) : Prop :=
    exists name, m_file m = [name] /\ m_path m = [name] /\ (forall f, ~ Lib [name] f) /\ (forall p, ~ Lib p [name]) /\ NoDup (m_requires m) /\ forall q, In q (m_requires m) -> Lib q q.
  Definition mains (F : fs) : Prop := forall f m t, (forall p, ~ Lib p f) -> objects F f = Some (ODecoded m, t) -> m_file m = f /\ a_main m.
  Lemma lose_mains F f o : mains F -> (forall m t, o <> Some (ODecoded m, t)) -> mains (with_object F f o).
  Proof. intros A N g m t H Q. cbn [objects with_object] in Q. destruct (path_eqb_spec g f) as [->|D]; [destruct (N _ _ Q)|eapply A; eauto]. Qed.
  Lemma write_mains E F m F' : mains F -> write_object E F m = Some F' -> ((forall p, ~ Lib p (m_file m)) -> a_main m) -> mains F'.
  Proof.
    intros A W H. unfold write_object in W. destruct (e_writable E (m_file m)); [|discriminate]. injection W as <-. intros g m' t Hg Q. cbn [objects] in Q. destruct (path_eqb_spec g (m_file m)) as [->|D]; [injection Q as <- <-; auto|eapply A; eauto].
  Qed.
  Lemma lose_faithful F f o : faithful F -> (forall m t, o <> Some (ODecoded m, t)) -> faithful (with_object F f o).
  Proof.
    intros [A B] N. split; [exact A|]. intros p g m t H Q. cbn [objects with_object] in Q. destruct (path_eqb_spec g f) as [->|D]; [destruct (N _ _ Q)|eapply B; eauto].
  Qed.
  Lemma edit_faithful F f s : faithful F -> (forall p, ~ Lib p f) -> faithful (with_source F f s).
  Proof.
    intros [A B] N. split; [|exact B]. intros p g H. cbn [sources with_source]. destruct (path_eqb_spec g f) as [->|D]; [destruct (N _ H)|eapply A; eauto].
  Qed.
  Lemma write_faithful E F m F' : faithful F -> write_object E F m = Some F' -> (forall p, Lib p (m_file m) -> (exists m0 sc, good p m0 sc /\ m = with_scope m0 sc) /\ forall text t', sources F0 (m_file m) = Some (text, t') -> t' <= e_now E) -> faithful F'.
  Proof.
    intros [A B] W H. unfold write_object in W. destruct (e_writable E (m_file m)); [|discriminate]. injection W as <-. split; [exact A|]. intros p f m' t Hf Q. cbn [objects] in Q.
    destruct (path_eqb_spec f (m_file m)) as [->|D]; [injection Q as <- <-; auto|eapply B; eauto].
  Qed.

  (** what is loaded is the source, or the source with its meaning *)
  Definition either (p : module_path) (m : module) : Prop := exists m0 sc, good p m0 sc /\ (m = m0 \/ m = with_scope m0 sc).
  Lemma load_either E F uc : same_compiler E0 E -> faithful F -> forall p r, Lib p (filename_relative_to p r) -> exists m, load_one E F uc p r = Ok m /\ either p m.
  Proof.
    intros C Ff p r H. destruct (good_exists _ _ H) as [m0 [sc [G Lm]]]. destruct Ff as [Fs Fo].
    assert (Src : load_from_source E F p (filename_relative_to p r) = Ok m0) by (rewrite <- Lm; apply load_source_of; [exact C|apply (Fs _ _ H)]).
    unfold load_one. destruct uc; [|exists m0; split; [exact Src|exists m0, sc; auto]]. unfold load_from_cache. destruct (load_from_object F (filename_relative_to p r)) as [m|] eqn:O; [|exists m0; split; [exact Src|exists m0, sc; auto]].
    apply object_decodes in O as [t O]. destruct (Fo _ _ _ _ H O) as [[m1 [s1 [G1 ->]]] T]. destruct (good_unique _ _ _ _ _ G G1) as [<- <-]. destruct (good_shape _ _ _ G) as [Sp [Sn [Sd [Sv Sf]]]].
    destruct (from_source_shape _ _ _ _ _ Lm) as [Mf _]. unfold check_if_is_dirty. cbn [m_file with_scope]. rewrite Mf, O.
    assert (Q : exists text t', sources F0 (filename_relative_to p r) = Some (text, t')) by (unfold load_from_source in Lm; destruct (sources F0 _) as [[a b]|]; [eauto|discriminate]).
    destruct Q as [text [t' Q]]. rewrite (Fs _ _ H), Q. specialize (T _ _ Q). destruct (Nat.ltb_spec t t'); [lia|]. cbn [m_version m_needs_eval with_scope]. rewrite Sv.
    destruct C as [Cv _]. rewrite Cv. rewrite Nat.ltb_irrefl, Sn. eexists. split; [reflexivity|]. exists m0, sc. split; [exact G|]. right. unfold with_flags, with_scope. cbn [m_version m_path m_program m_file m_dirty m_needs_eval pr_sheet pr_required].
    rewrite Sd, Sn. reflexivity.
  Qed.

  (** A run that loads modules with [load1], whatever that is: the cache, or files that others are writing. *)
  Section Run.
    Variables (E : env) (F : fs) (uc : bool) (main : module) (load1 : module_path -> module_path -> outcome load_failure module).
    Hypothesis C : same_compiler E0 E.
    Hypothesis Ff : faithful F.
    Hypothesis Load : forall p r, Lib p (filename_relative_to p r) -> exists m, load1 p r = Ok m /\ either p m.
    Hypothesis Fm : mains F.
    Hypothesis Past : in_the_past E F Lib.
    Hypothesis Np : forall f, ~ Lib (m_path main) f.
    Hypothesis Nf : forall p, ~ Lib p (m_file main).
    Hypothesis Nd : NoDup (m_requires main).
    Hypothesis Im : forall q, In q (m_requires main) -> Lib q (filename_relative_to q (m_path main)).
    Lemma either_requires p m : either p m -> exists m0 sc, good p m0 sc /\ m_requires m = m_requires m0 /\ m_path m = p /\ m_dirty m = false /\ m_needs_eval m = true /\ m_file m = m_file m0.
    Proof. intros [m0 [sc [G H]]]. destruct (good_shape _ _ _ G) as [A [B [D _]]]. exists m0, sc. split; [exact G|]. destruct H as [->| ->]; cbn; auto 10. Qed.
    Lemma reach_lib p r : reachable load1 main p r -> Lib p (filename_relative_to p r).
    Proof.
      intro H. induction H as [p Hp|q r m p H IH Lm Hp]; [apply Im, Hp|]. destruct (Load _ _ IH) as [m' [Lm' X]]. rewrite Lm in Lm'. injection Lm' as <-.
      destruct (either_requires _ _ X) as [m0 [sc [G [Rq [Pq _]]]]]. rewrite Pq. rewrite Rq in Hp. destruct G as [f [n [A [B D]]]]. destruct L as [_ [_ L3]]. destruct (L3 _ _ A) as [_ K]. exact (K _ _ B Hp).
    Qed.
    Variables (sh : shared).
    Hypothesis Run : load_run load1 main sh TDone.
    Lemma all_loaded p : (In p (m_requires main) \/ exists q m, passoc q (loaded sh) = Some m /\ In p (m_requires m)) -> exists m, passoc p (loaded sh) = Some m.
    Proof.
      intro H. destruct (every_import_recorded _ _ _ Run p H) as [[m A]|[e [r [B D]]]]; [eauto|]. exfalso. destruct (Load _ _ (reach_lib _ _ B)) as [m [X _]]. congruence.
    Qed.
    Lemma loaded_either p m : In (p, m) (loaded sh) -> either p m.
    Proof.
      intro I. destruct Run as [Rs _]. destruct (sourced_run _ _ _ _ Rs) as [_ [Sl _]]. destruct (Sl _ _ I) as [r [A B]]. destruct (Load _ _ (reach_lib _ _ A)) as [m' [X Y]]. rewrite B in X. injection X as <-. exact Y.
    Qed.
    Lemma none_failed : failed sh = [].
    Proof.
      destruct (failed sh) as [|[p e] l] eqn:Fl; [reflexivity|]. exfalso. destruct Run as [Rs _]. destruct (sourced_run _ _ _ _ Rs) as [_ [_ Sf]]. destruct (Sf p e) as [r [A B]]; [rewrite Fl; left; reflexivity|].
      destruct (Load _ _ (reach_lib _ _ A)) as [m' [X _]]. congruence.
    Qed.
    Lemma none_dirty : any_dirty main (loaded sh) = false.
    Proof.
      destruct (any_dirty main (loaded sh)) eqn:A; [|reflexivity]. exfalso. apply any_dirty_iff in A.
      - destruct A as [p [m [P [D _]]]]. apply passoc_In in P. destruct (either_requires _ _ (loaded_either _ _ P)) as [m0 [sc [_ [_ [_ [X _]]]]]]. congruence.
      - intros m P. apply passoc_In in P. destruct (either_requires _ _ (loaded_either _ _ P)) as [m0 [sc [_ [_ [_ [X _]]]]]]. exact X.
    Qed.
    (** imports are nested less deep *)
    Lemma path_not_main p m : passoc p (loaded sh) = Some m -> p <> m_path main.
    Proof. intros P ->. apply passoc_In, loaded_either in P as [m0 [sc [[f [n [A _]]] _]]]. exact (Np _ A). Qed.
    Lemma edge_descends p q n f : Lib p f -> meaning (S n) E0 F0 p f <> None -> In q (edges main (loaded sh) p) -> exists g, Lib q g /\ meaning n E0 F0 q g <> None.
    Proof.
      intros A M I. unfold edges in I. destruct (path_eqb_spec p (m_path main)) as [->|N]; [destruct (Np _ A)|]. cbn [app] in I. destruct (passoc p (loaded sh)) as [m|] eqn:P; [|destruct I].
      apply passoc_In, loaded_either, either_requires in P as [m0 [sc [G [Rq _]]]]. rewrite Rq in I. destruct G as [f' [n' [A' [B' _]]]]. destruct L as [L1 _]. pose proof (L1 _ _ _ A A'). subst f'.
      exists (filename_relative_to q p). eapply good_descends; eauto.
    Qed.
    Lemma leads_descends p q : leads_to main (loaded sh) p q -> forall n f, Lib p f -> meaning (S n) E0 F0 p f <> None -> exists g, Lib q g /\ meaning n E0 F0 q g <> None.
    Proof.
      intro H. induction H as [p q I|p q r I _ IH]; intros n f A M; [eapply edge_descends; eauto|]. destruct (edge_descends _ _ _ _ A M I) as [g [B D]].
      destruct n as [|n]; [cbn in D; contradiction|]. destruct (IH _ _ B D) as [h [X Y]]. exists h. split; [exact X|]. destruct (meaning n E0 F0 r h) as [s|] eqn:Q; [|contradiction]. rewrite (meaning_mono _ _ _ _ _ _ Q). discriminate.
    Qed.
    Lemma no_cycle p m0 sc : good p m0 sc -> ~ leads_to main (loaded sh) p p.
    Proof.
      intros [f [n [A [_ M]]]] H. assert (X : forall k, meaning k E0 F0 p f <> None -> False); [|apply (X n); congruence].
      induction k as [|k IH]; intro Q; [apply Q; reflexivity|]. destruct (leads_descends _ _ H _ _ A Q) as [g [B D]]. destruct L as [L1 _]. pose proof (L1 _ _ _ A B). subst g. auto.
    Qed.
    Lemma leads_trans p q r : leads_to main (loaded sh) p q -> leads_to main (loaded sh) q r -> leads_to main (loaded sh) p r.
    Proof. intro H. induction H; intro; [eapply l_more|eapply l_more]; eauto. Qed.
    Lemma order_first order : resolution_order main (loaded sh) order -> forall a p b m q, order = a ++ p :: b -> passoc p (loaded sh) = Some m -> In q (m_requires m) -> In q a.
    Proof.
      intros [O1 O2] a p b m q Eo P I. specialize (O2 Nd).
      assert (Le : leads_to main (loaded sh) p q) by (apply l_one; unfold edges; apply in_or_app; right; rewrite P; exact I).
      pose proof (passoc_In _ _ _ P) as Ip. destruct (loaded_either _ _ Ip) as [m0 [sc [G _]]].
      assert (Iq : In q order). { apply O1. unfold graph_nodes. apply reserve_spec. split; [|intros []]. right. apply in_or_app. right. apply in_flat_map. exists (p, m). split; [exact Ip|]. right. exact I. }
      rewrite Eo in Iq. apply in_app_or in Iq as [Iq|[<-|Iq]]; [exact Iq|destruct (no_cycle _ _ _ G Le)|]. exfalso. apply in_split in Iq as [b1 [b2 ->]]. pose proof (O2 _ _ _ _ _ Eo Le) as Le2. exact (no_cycle _ _ _ G (leads_trans _ _ _ Le Le2)).
    Qed.
    Lemma in_order order : resolution_order main (loaded sh) order -> forall p m, passoc p (loaded sh) = Some m -> In p order.
    Proof. intros [O1 _] p m P. apply O1. unfold graph_nodes. apply reserve_spec. split; [|intros []]. right. apply in_or_app. right. apply in_flat_map. exists (p, m). split; [apply passoc_In, P|]. left. reflexivity. Qed.

    (** *** evaluation *)
    Definition so_far (a : list module_path) (ld : list (module_path * module)) (scopes : list (module_path * scope)) : Prop :=
      forall p, match passoc p (loaded sh) with
                | None => passoc p ld = None
                | Some _ => exists m0 sc m, good p m0 sc /\ passoc p ld = Some m /\ (m = m0 \/ m = with_scope m0 sc) /\ passoc p scopes = Some (m_scope m) /\ (In p a -> m = with_scope m0 sc)
                end.
    Definition evaluated (ld : list (module_path * module)) : Prop :=
      forall p, match passoc p (loaded sh) with None => passoc p ld = None | Some _ => exists m0 sc, good p m0 sc /\ passoc p ld = Some (with_scope m0 sc) end.
    Lemma eval_so_far order0 : (forall a p b m q, order0 = a ++ p :: b -> passoc p (loaded sh) = Some m -> In q (m_requires m) -> In q a) ->
      forall order a ld scopes G, order0 = a ++ order -> so_far a ld scopes -> faithful G -> mains G -> exists r G', eval_in_order E uc order ld scopes G = (r, G') /\ faithful G' /\ mains G'
        /\ (uc = false -> G' = G) /\ ((exists f, r = Err (NotWritten f) /\ e_writable E f = false /\ uc = true) \/ exists ld' scopes', r = Ok ld' /\ so_far order0 ld' scopes').
    Proof.
      intro Hor. induction order as [|p order IH]; intros a ld scopes G Eo St FG MG; cbn [eval_in_order].
      - rewrite app_nil_r in Eo. subst a. do 2 eexists. split; [reflexivity|]. split; [exact FG|]. split; [exact MG|]. split; [auto|]. right. eauto.
      - assert (Eo' : order0 = (a ++ [p]) ++ order) by (rewrite <- app_assoc; exact Eo). pose proof (St p) as Sp. destruct (passoc p (loaded sh)) as [ml|] eqn:P0.
        + destruct Sp as [m0 [sc [m [Gp [Pm [Hm [Ps Pd]]]]]]]. rewrite Pm. destruct (good_shape _ _ _ Gp) as [Sp [Sn [Sd [Sv Sf]]]].
          assert (Mn : m_needs_eval m = true /\ m_requires m = m_requires m0 /\ m_path m = p /\ m_file m = m_file m0) by (destruct Hm as [->| ->]; cbn; auto). destruct Mn as [Mn [Mr [Mp Mf]]]. rewrite Mn. cbn [negb].
          assert (Rq : m_requires ml = m_requires m0). { apply passoc_In, loaded_either, either_requires in P0 as [m1 [s1 [G1 [X _]]]]. destruct (good_unique _ _ _ _ _ Gp G1) as [<- <-]. exact X. }
          assert (Sq : forall q mq sq, In q (m_requires m0) -> good q mq sq -> passoc q scopes = Some sq).
          { intros q mq sq I Gq. rewrite <- Rq in I. pose proof (Hor _ _ _ _ _ Eo P0 I) as Ia. pose proof (St q) as Sq. destruct (all_loaded q) as [mq' Q]; [right; eauto|]. rewrite Q in Sq.
            destruct Sq as [m1 [s1 [m2 [G1 [_ [_ [A B]]]]]]]. destruct (good_unique _ _ _ _ _ Gq G1) as [<- <-]. rewrite A, (B Ia). reflexivity. }
          assert (Mv : exists s0, merge_scopes scopes (rev (m_requires m)) (m_scope m) = Some s0 /\ eval_scope E p s0 = Ok sc).
          { destruct (good_step _ _ _ _ Gp Sq) as [[s0 [A B]] [D1 D2]]. rewrite Mr. destruct Hm as [->| ->]; [exists s0|exists sc]; (split; [assumption|]); rewrite (eval_scope_of E0 E _ _ C); assumption. }
          destruct Mv as [s0 [Ms Es]]. rewrite Ms, Es.
          assert (Mw : with_scope m sc = with_scope m0 sc) by (destruct Hm as [->| ->]; reflexivity). rewrite Mw. cbv zeta. change (m_path (with_scope m0 sc)) with (m_path m0). rewrite Sp.
          assert (St' : so_far (a ++ [p]) (pinsert p (with_scope m0 sc) ld) (pinsert p sc scopes)).
          { intro q. destruct (path_eqb_spec q p) as [->|N].
            - rewrite P0. exists m0, sc, (with_scope m0 sc). rewrite !passoc_insert_same. auto 10.
            - pose proof (St q) as Sq'. rewrite !passoc_insert_other by exact N. destruct (passoc q (loaded sh)) as [mq|]; [|exact Sq']. destruct Sq' as [m1 [s1 [m2 [A [B [D [X Y]]]]]]]. exists m1, s1, m2. repeat (split; [assumption|]). intro I. apply Y.
              apply in_app_or in I as [I|[I|[]]]; [exact I|congruence]. }
          destruct uc.
          * destruct (write_object E G (with_scope m0 sc)) as [G1|] eqn:W.
            -- assert (FG1 : faithful G1).
               { eapply write_faithful; [exact FG|exact W|]. cbn [m_file with_scope]. intros p' Hp'. destruct L as [_ [L2 _]]. pose proof (L2 _ _ _ Hp' Sf). subst p'. split; [eauto|]. intros text t' Q. destruct Ff as [Fs _]. apply (Past p (m_file m0) text); [exact Sf|]. rewrite (Fs _ _ Sf). exact Q. }
               assert (MG1 : mains G1) by (eapply write_mains; [exact MG|exact W|]; cbn [m_file with_scope]; intro N; destruct (N _ Sf)).
               destruct (IH _ _ _ G1 Eo' St' FG1 MG1) as [r [G' [A [B [B2 [D X]]]]]]. do 2 eexists. split; [exact A|]. split; [exact B|]. split; [exact B2|]. split; [discriminate|exact X].
            -- do 2 eexists. split; [reflexivity|]. split; [exact FG|]. split; [exact MG|]. split; [auto|]. left. exists (m_file m0). split; [reflexivity|]. unfold write_object in W. cbn [m_file with_scope] in W. destruct (e_writable E (m_file m0)); [discriminate|auto].
          * destruct (IH _ _ _ G Eo' St' FG MG) as [r [G' [A [B [B2 [D X]]]]]]. eauto 12.
        + rewrite Sp. eapply IH; [exact Eo'| |exact FG|exact MG]. intro q. pose proof (St q) as Sq'. destruct (passoc q (loaded sh)) as [mq|] eqn:Q; [|exact Sq']. destruct Sq' as [m1 [s1 [m2 [A [B [D [X Y]]]]]]]. exists m1, s1, m2. repeat (split; [assumption|]). intro I. apply Y.
          apply in_app_or in I as [I|[I|[]]]; [exact I|congruence].
    Qed.
    Lemma start_so_far : so_far [] (loaded sh) (map (fun pm => (fst pm, m_scope (snd pm))) (loaded sh)).
    Proof.
      intro p. assert (Pq : passoc p (map (fun pm => (fst pm, m_scope (snd pm))) (loaded sh)) = option_map m_scope (passoc p (loaded sh))).
      { generalize (loaded sh). intro l. induction l as [|[q m] l IH]; cbn [map passoc fst snd]; [reflexivity|]. destruct (path_eqb p q); [reflexivity|exact IH]. }
      rewrite Pq. destruct (passoc p (loaded sh)) as [m|] eqn:P; [|reflexivity]. destruct (loaded_either _ _ (passoc_In _ _ _ P)) as [m0 [sc [G H]]]. exists m0, sc, m. cbn [option_map]. repeat (split; [auto|]). intros [].
    Qed.
    Lemma dependencies_evaluated order : resolution_order main (loaded sh) order -> exists r G', eval_dependencies E uc order (loaded sh) F = (r, G') /\ faithful G' /\ mains G' /\ (uc = false -> G' = F)
      /\ ((exists f, r = Err (NotWritten f) /\ e_writable E f = false /\ uc = true) \/ exists ld, r = Ok ld /\ evaluated ld).
    Proof.
      intro O. destruct (eval_so_far order (fun a p b m q Eo => order_first order O a p b m q Eo) order [] _ _ F eq_refl start_so_far Ff Fm) as [r [G' [A [B [B2 [D X]]]]]]. exists r, G'. split; [exact A|]. split; [exact B|]. split; [exact B2|]. split; [exact D|].
      destruct X as [X|[ld [scopes [-> S]]]]; [left; exact X|right]. exists ld. split; [reflexivity|]. intro p. specialize (S p). destruct (passoc p (loaded sh)) as [m|] eqn:P; [|exact S].
      destruct S as [m0 [sc [m1 [G1 [Q [_ [_ Z]]]]]]]. exists m0, sc. split; [exact G1|]. rewrite Q, Z; [reflexivity|]. eapply in_order; eauto.
    Qed.
    Lemma killed_faithful order rest r G' : resolution_order main (loaded sh) (order ++ rest) -> eval_dependencies E uc order (loaded sh) F = (r, G') -> faithful G' /\ mains G'.
    Proof.
      intros O H. destruct (eval_so_far order (fun a p b m q Eo => order_first (order ++ rest) O a p (b ++ rest) m q (eq_trans (f_equal (fun l => l ++ rest) Eo) (eq_trans (eq_sym (app_assoc a (p :: b) rest)) eq_refl))) order [] _ _ F eq_refl start_so_far Ff Fm) as [r1 [G1 [A [B [B2 _]]]]].
      unfold eval_dependencies in H. rewrite A in H. injection H as <- <-. auto.
    Qed.
    (** *** the whole compilation *)
    Definition main_scope (sc : scope) : Prop :=
      exists ld, (forall q, In q (m_requires main) -> exists m0 s, good q m0 s /\ passoc q ld = Some (with_scope m0 s)) /\ merge_required (m_requires main) ld (m_scope main) = Some sc.
    Definition outcome_of (kv : list (str * node)) (sc : scope) : outcome compile_error module := fst (finish E false kv (with_flags (with_scope main sc) false (m_needs_eval main)) F).
    Hypothesis Am : a_main main.
    Lemma finish_spec kv sc G r G' : faithful G -> mains G -> finish E uc kv (with_flags (with_scope main sc) false (m_needs_eval main)) G = (r, G') ->
      faithful G' /\ mains G' /\ ((exists f, r = Err (NotWritten f) /\ e_writable E f = false) \/ r = outcome_of kv sc).
    Proof.
      intros FG MG H. unfold outcome_of. unfold finish in *. destruct (m_needs_eval (with_flags (with_scope main sc) false (m_needs_eval main))); [|injection H as <- <-; auto].
      destruct (main_eval (e_sheet E) (e_sched E) _ kv) as [p|e| |] eqn:M; try (injection H as <- <-; auto).
      destruct uc; [|injection H as <- <-; auto]. destruct (write_object E G _) as [G1|] eqn:W; injection H as <- <-.
      - split; [|split; [|right; reflexivity]].
        + eapply write_faithful; [exact FG|exact W|]. cbn. intros q Hq. destruct (Nf _ Hq).
        + eapply write_mains; [exact MG|exact W|]. cbn. intros _. destruct Am as [name [A1 [A2 [A3 [A4 [A5 A6]]]]]]. exists name.
          assert (Rq : pr_required p = m_requires main).
          { clear -M. unfold main_eval in M. apply bind_ok in M as [p1 [M1 M]]. unfold module_eval_fills in M1. destruct (eval_fills _); [|discriminate]. injection M1 as <-. unfold eval_spreadsheet in M. apply bind_ok in M as [rows [_ M]]. injection M as <-. reflexivity. }
          unfold a_main, m_requires. cbn [m_file m_path m_program with_flags with_program with_scope]. rewrite Rq. auto 10.
      - split; [exact FG|]. split; [exact MG|]. left. unfold write_object in W. destruct (e_writable E _) eqn:Q in W; [discriminate|]. eauto.
    Qed.
    Lemma run_compile kv order r G : resolution_order main (loaded sh) order -> compile_with E uc kv main sh TDone order F = (r, G) ->
      faithful G /\ mains G /\ ((exists f, r = Err (NotWritten f) /\ e_writable E f = false) \/ exists sc, main_scope sc /\ r = outcome_of kv sc).
    Proof.
      intros O H. unfold compile_with in H. cbn [panicked] in H. unfold load_main in H. rewrite none_dirty in H. destruct (dependencies_evaluated order O) as [r1 [G1 [A [B [B2 [_ X]]]]]]. rewrite A in H.
      destruct X as [[f [-> [W _]]]|[ld [-> Ev]]]; [injection H as <- <-; split; [exact B|]; split; [exact B2|]; left; eauto|]. rewrite none_failed in H. unfold merge_direct_dependencies in H.
      assert (D : forall q, In q (m_requires main) -> exists m0 s, good q m0 s /\ passoc q ld = Some (with_scope m0 s)).
      { intros q I. destruct (all_loaded q (or_introl I)) as [m P]. specialize (Ev q). rewrite P in Ev. exact Ev. }
      destruct (merge_required_known (m_requires main) ld (m_scope main) Nd) as [sc Ms]; [intros q I; destruct (D q I) as [m0 [s [_ P]]]; congruence|].
      rewrite Ms in H. cbn [with_flags m_needs_eval with_scope] in H. change (m_needs_eval (with_scope main sc)) with (m_needs_eval main) in H.
      destruct (finish_spec kv sc G1 r G B B2 H) as [K1 [K2 K3]]. split; [exact K1|]. split; [exact K2|]. destruct K3 as [K3|K3]; [left; exact K3|right]. exists sc. split; [exists ld; auto|exact K3].
    Qed.
  End Run.
  Lemma main_scope_unique main s1 s2 : NoDup (m_requires main) -> main_scope main s1 -> main_scope main s2 -> s1 = s2.
  Proof.
    intros N [l1 [A1 B1]] [l2 [A2 B2]]. rewrite (merge_required_ext _ l1 l2) in B1; [congruence|exact N|]. intros q I. destruct (A1 q I) as [m1 [c1 [G1 P1]]]. destruct (A2 q I) as [m2 [c2 [G2 P2]]].
    destruct (good_unique _ _ _ _ _ G1 G2) as [<- <-]. congruence.
  Qed.
  (** whatever is compiled: the object files stay as they should be *)
  Lemma main_is_main E F name main : same_compiler E0 E -> mains F -> uses_library E F Lib name -> load_from_cache_from_filename E F [name] [name] = Ok main -> a_main main /\ m_file main = [name].
  Proof.
    intros C Mf [U1 [U2 U3]] H. assert (X : forall m, load_from_source E F [name] [name] = Ok m -> a_main m /\ m_file m = [name]).
    { intros m Q. destruct (from_source_shape _ _ _ _ _ Q) as [Q1 [Q2 _]]. split; [|exact Q1]. destruct (U3 _ Q) as [Q3 Q4]. exists name. auto 10. }
    unfold load_from_cache_from_filename in H. destruct (load_from_object F [name]) as [m|] eqn:O; [|auto]. apply object_decodes in O as [t O]. apply bind_ok in H as [m1 [K H]]. destruct (m_dirty m1); [auto|]. injection H as <-.
    destruct (Mf _ _ _ U2 O) as [Q1 Q2]. assert (exists d n, m1 = with_flags m d n) as [d [n ->]].
    { unfold check_if_is_dirty in K. destruct (objects F (m_file m)) as [[o ot]|]; [|discriminate]. destruct (sources F (m_file m)) as [[x y]|]; [|discriminate]. destruct (ot <? y); injection K as <-; eauto. }
    split; [|exact Q1]. destruct Q2 as [nm Q2]. exists nm. exact Q2.
  Qed.
  Lemma compiles_spec E F uc kv name r G : same_compiler E0 E -> faithful F -> mains F -> in_the_past E F Lib -> uses_library E F Lib name -> compiles E uc kv name F (r, G) ->
    faithful G /\ mains G /\ ((exists f, r = Err (NotWritten f) /\ e_writable E f = false)
      \/ match load_from_cache_from_filename E F [name] [name] with
         | Ok main => exists sc, main_scope main sc /\ r = outcome_of E F main kv sc
         | Err e => r = Err (MainNotLoaded e)
         | _ => r = Panic
         end).
  Proof.
    intros C Ff Mf Past U H. inversion H as [main sh t order Lm R O Q|e Lm Q|Lm Q]; subst; try (rewrite Lm; split; [exact Ff|]; split; [exact Mf|]; right; reflexivity).
    destruct (main_is_main _ _ _ _ C Mf U Lm) as [Am Fn]. pose proof Am as [nm [A1 [A2 [A3 [A4 [A5 A6]]]]]].
    assert (Im : forall q, In q (m_requires main) -> Lib q (filename_relative_to q (m_path main))) by (intros q I; rewrite A2; exact (A6 _ I)).
    assert (Np : forall f, ~ Lib (m_path main) f) by (rewrite A2; exact A3). assert (Nf : forall p, ~ Lib p (m_file main)) by (rewrite A1; exact A4).
    assert (t = TDone) as ->.
    { eapply run_no_panic; [|exact R]. intros p q Rc. destruct (load_either E F uc C Ff p q (reach_lib main (load_one E F uc) (load_either E F uc C Ff) Im p q Rc)) as [m [X _]]. eauto. }
    rewrite Lm. apply (run_compile E F uc main (load_one E F uc) C Ff (load_either E F uc C Ff) Mf Past Np Nf A5 Im sh R Am kv order r G O Q).
  Qed.
  Lemma history_faithful F : history E0 F0 Lib F -> faithful F /\ mains F.
  Proof.
    intro H. induction H as [N|F E uc kv name r F' H [I1 I2] C Past U K|F E name main sh order rest r F' H [I1 I2] C Past U Lm R O K|F f s H [I1 I2] N|F f o H [I1 I2] N].
    - split; [split; [reflexivity|]; intros p f m t _ Q; rewrite N in Q; discriminate|]. intros f m t _ Q. rewrite N in Q. discriminate.
    - destruct (compiles_spec _ _ _ _ _ _ _ C I1 I2 Past U K) as [A [B _]]. auto.
    - destruct (main_is_main _ _ _ _ C I2 U Lm) as [Am _]. pose proof Am as [nm [A1 [A2 [A3 [A4 [A5 A6]]]]]].
      assert (Im : forall q, In q (m_requires main) -> Lib q (filename_relative_to q (m_path main))) by (intros q I; rewrite A2; exact (A6 _ I)).
      assert (Np : forall f, ~ Lib (m_path main) f) by (rewrite A2; exact A3). assert (Nf : forall p, ~ Lib p (m_file main)) by (rewrite A1; exact A4).
      eapply (killed_faithful E F true main (load_one E F true) C I1 (load_either E F true C I1) I2 Past Np A5 Im sh R); eauto.
    - split; [apply edit_faithful; assumption|exact I2].
    - split; [apply lose_faithful|apply lose_mains]; assumption.
  Qed.
End Library.
