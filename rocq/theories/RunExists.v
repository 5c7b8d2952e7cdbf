(** * RunExists: every compilation has a result: modules can always be loaded and put in order. *)
From Coq Require Import Permutation Lia.
From Verif Require Import Base BaseProofs Csvp Ast AstParser Eval Options Sheet Loader LoaderSpec LoaderProofs LoaderProofs2 LoaderProofs3.

(** ** Reachability in a finite graph can be decided *)
Section Graph.
  Variable next : module_path -> list module_path.
  Inductive walk : module_path -> module_path -> Prop :=
  | w_one p q : In q (next p) -> walk p q
  | w_more p q r : In q (next p) -> walk q r -> walk p r.
  Lemma walk_trans p q r : walk p q -> walk q r -> walk p r.
  Proof. induction 1; intro; [eapply w_more; eauto|eapply w_more; eauto]. Qed.
  (** what is reached in at most [n] further steps *)
  Fixpoint within (n : nat) (s : list module_path) : list module_path :=
    match n with 0 => s | S n => s ++ within n (flat_map next s) end.
  Lemma walk_chain p q : walk p q -> exists vs, import_chain next p vs q.
  Proof. induction 1 as [p q H|p q r H _ [vs C]]; [exists []; exact H|exists (q :: vs); split; assumption]. Qed.
  Lemma chain_walk : forall vs p q, import_chain next p vs q -> walk p q.
  Proof. induction vs as [|v vs IH]; intros p q H; cbn [import_chain] in H; [apply w_one, H|]. destruct H as [A B]. eapply w_more; [exact A|apply IH, B]. Qed.
  Lemma chain_suffix : forall a v b p q, import_chain next p (a ++ v :: b) q -> import_chain next v b q.
  Proof. induction a as [|x a IH]; intros v b p q H; cbn [app import_chain] in H; destruct H as [_ H]; [exact H|eapply IH, H]. Qed.
  (** a way without repetitions *)
  Lemma short_chain : forall vs p q, import_chain next p vs q -> exists ws, import_chain next p ws q /\ NoDup ws /\ incl ws vs.
  Proof.
    intros vs. remember (length vs) as n eqn:L. revert vs L. induction n as [n IH] using lt_wf_ind. intros [|v vs] L p q H; [exists []; repeat split; [exact H|constructor|intros ? []]|].
    cbn [import_chain length] in *. destruct H as [A B]. destruct (in_dec path_eq_dec v vs) as [I|N].
    - apply in_split in I as (a & b & ->). pose proof (chain_suffix a v b v q B) as B'.
      destruct (IH (length (v :: b)) ltac:(rewrite app_length in L; cbn [length] in *; lia) (v :: b) eq_refl p q (conj A B')) as (ws & C & Nd & I). exists ws. split; [exact C|]. split; [exact Nd|].
      intros x Hx. apply I in Hx as [<-|Hx]; [left; reflexivity|right; apply in_or_app; right; right; exact Hx].
    - destruct (IH (length vs) ltac:(lia) vs eq_refl v q B) as (ws & C & Nd & I). exists (v :: ws).
      destruct (in_dec path_eq_dec v ws) as [J|J]; [exfalso; apply N, I, J|]. split; [split; [exact A|exact C]|]. split; [constructor; assumption|]. intros x [<-|Hx]; [left; reflexivity|right; apply I, Hx].
  Qed.
  Lemma within_chain : forall n s q, In q (within n s) <-> In q s \/ exists p vs, In p s /\ length vs < n /\ import_chain next p vs q.
  Proof.
    induction n as [|n IH]; intros s q; cbn [within].
    - split; [auto|]. intros [H|(p & vs & _ & L & _)]; [exact H|lia].
    - rewrite in_app_iff, IH. split.
      + intros [H|[H|(p & vs & Hp & L & C)]]; [auto| |].
        * apply in_flat_map in H as (p & Hp & Hq). right. exists p, []. split; [exact Hp|]. split; [cbn; lia|exact Hq].
        * apply in_flat_map in Hp as (p0 & Hp0 & Hq). right. exists p0, (p :: vs). split; [exact Hp0|]. split; [cbn; lia|]. split; assumption.
      + intros [H|(p & vs & Hp & L & C)]; [auto|]. right. destruct vs as [|v vs]; cbn [import_chain length] in *.
        * left. apply in_flat_map. eauto.
        * right. destruct C as [A B]. exists v, vs. split; [apply in_flat_map; eauto|]. split; [lia|exact B].
  Qed.
  (** all nodes, and what follows on them *)
  Variable nodes : list module_path.
  Hypothesis Closed : forall p, incl (next p) nodes.
  Lemma chain_in : forall vs p q, import_chain next p vs q -> incl vs nodes.
  Proof.
    induction vs as [|v vs IH]; intros p q H; [intros ? []|]. destruct H as [A B]. intros x [<-|Hx]; [exact (Closed _ _ A)|exact (IH _ _ B x Hx)].
  Qed.
  (** [p] and what can be reached from it *)
  Definition reach (p : module_path) : list module_path := nodup path_eq_dec (within (S (length nodes)) [p]).
  Lemma reach_spec p q : In q (reach p) <-> q = p \/ walk p q.
  Proof.
    unfold reach. rewrite nodup_In, within_chain. split.
    - intros [[<-|[]]|(r & vs & [<-|[]] & _ & C)]; [auto|right; eapply chain_walk, C].
    - intros [->|W]; [left; left; reflexivity|]. right. destruct (walk_chain _ _ W) as [vs C]. destruct (short_chain _ _ _ C) as (ws & C' & Nd & _).
      exists p, ws. split; [left; reflexivity|]. split; [|exact C']. pose proof (NoDup_incl_length Nd (chain_in _ _ _ C')). lia.
  Qed.
  Lemma reach_nodup p : NoDup (reach p). Proof. apply NoDup_nodup. Qed.
  Definition rank (p : module_path) : nat := length (reach p).
  Lemma rank_walk p q : walk p q -> rank q <= rank p /\ (rank p <= rank q -> walk q p).
  Proof.
    intro W. assert (I : incl (reach q) (reach p)).
    { intros x Hx. apply reach_spec in Hx as [->|Hx]; apply reach_spec; right; [exact W|eapply walk_trans; eassumption]. }
    split; [apply NoDup_incl_length; [apply reach_nodup|exact I]|]. intro L.
    pose proof (NoDup_length_incl (reach_nodup q) L I) as J. assert (K : In p (reach p)) by (apply reach_spec; auto). apply J, reach_spec in K as [->|K]; assumption.
  Qed.
  Fixpoint put (p : module_path) (l : list module_path) : list module_path :=
    match l with [] => [p] | q :: l => if rank p <=? rank q then p :: q :: l else q :: put p l end.
  Fixpoint sort (l : list module_path) : list module_path := match l with [] => [] | p :: l => put p (sort l) end.
  Lemma put_in p l q : In q (put p l) <-> q = p \/ In q l.
  Proof. induction l as [|x l IH]; cbn [put]; [cbn; intuition|]. destruct (rank p <=? rank x); cbn [In]; [intuition|rewrite IH; intuition]. Qed.
  Lemma sort_in l q : In q (sort l) <-> In q l.
  Proof. induction l as [|x l IH]; [reflexivity|]. cbn [sort In]. rewrite put_in, IH. intuition. Qed.
  Fixpoint sorted (l : list module_path) : Prop := match l with [] => True | p :: l => (forall q, In q l -> rank p <= rank q) /\ sorted l end.
  Lemma put_sorted p l : sorted l -> sorted (put p l).
  Proof.
    induction l as [|x l IH]; cbn [put sorted]; [intros _; split; [intros ? []|exact I]|]. intros [A B]. destruct (Nat.leb_spec (rank p) (rank x)).
    - cbn [sorted]. split; [intros q [<-|Hq]; [assumption|specialize (A q Hq); lia]|auto].
    - cbn [sorted]. split; [intros q Hq; apply put_in in Hq as [->|Hq]; [lia|auto]|auto].
  Qed.
  Lemma sort_sorted l : sorted (sort l). Proof. induction l; [exact I|apply put_sorted; assumption]. Qed.
  Lemma sorted_before : forall l, sorted l -> forall a p b q c, l = a ++ p :: b ++ q :: c -> rank p <= rank q.
  Proof.
    intros l S a p b q c ->. induction a as [|x a IH]; cbn [app sorted] in S; destruct S as [A B]; [apply A, in_or_app; right; left; reflexivity|apply IH, B].
  Qed.
End Graph.

Lemma leads_walk main ld p q : leads_to main ld p q <-> walk (edges main ld) p q.
Proof. split; (induction 1; [constructor; assumption|econstructor; eassumption]). Qed.
(** ** There is always an order for the modules *)
Theorem order_exists main ld : exists order, resolution_order main ld order.
Proof.
  set (nodes := graph_nodes main ld). assert (Cl : forall p, incl (edges main ld p) nodes).
  { intros p q H. unfold nodes, graph_nodes. apply reserve_spec. split; [|intros []]. right. unfold edges in H. apply in_app_iff in H. apply in_app_iff. destruct H as [H|H].
    - left. destruct (path_eqb p (m_path main)); [exact H|destruct H].
    - right. destruct (passoc p ld) as [m|] eqn:P; [|destruct H]. apply passoc_In in P. apply in_flat_map. exists (p, m). split; [exact P|right; exact H]. }
  exists (sort (edges main ld) nodes nodes). split; [intro p; apply sort_in|].
  intros _ a p b q c E L. apply leads_walk in L. apply leads_walk. destruct (rank_walk (edges main ld) nodes Cl p q L) as [_ R]. apply R.
  eapply (sorted_before (edges main ld) nodes); [apply sort_sorted; exact Cl|exact E].
Qed.

(** However the loader threads ran so far, they can go on to a result. *)
Theorem can_go_on E F uc kv name main sh t : finite_files F -> load_from_cache_from_filename E F [name] [name] = Ok main ->
  steps (load_one E F uc) (no_modules, TLoad None main) (sh, t) ->
  exists sh' t' order, steps (load_one E F uc) (sh, t) (sh', t') /\ finished t' = true /\ resolution_order main (loaded sh') order
    /\ compiles E uc kv name F (compile_with E uc kv main sh' t' order F).
Proof.
  intros Fi L S. destruct (finite_modules E F uc main Fi) as [U HU].
  assert (exists n, run_length (load_one E F uc) n (no_modules, TLoad None main) (sh, t)) as [n R].
  { clear -S. induction S as [c|c c' c'' H _ [n IH]]; [exists 0; apply rl_0|exists (Datatypes.S n); eapply rl_S; eassumption]. }
  destruct (run_completes (load_one E F uc) main U HU (load_one_ends E F uc) n sh t R) as (sh' & t' & S' & D). destruct (order_exists main (loaded sh')) as [order O].
  exists sh', t', order. split; [exact S'|]. split; [exact D|]. split; [exact O|]. eapply c_run; [exact L| |exact O]. split; [|exact D]. eapply steps_trans; eassumption.
Qed.
Theorem compile_exists E F uc kv name : finite_files F -> exists r, compiles E uc kv name F r.
Proof.
  intro Fi. destruct (load_from_cache_from_filename E F [name] [name]) as [main|e| |] eqn:L.
  - destruct (can_go_on E F uc kv name main no_modules (TLoad None main) Fi L (st_refl _ _)) as (sh' & t' & order & _ & _ & _ & C). eauto.
  - eexists. apply c_main_failed, L.
  - eexists. apply c_main_panics, L.
  - exfalso. exact (main_ends _ _ _ _ L).
Qed.
(** ** A directory stays finite *)
Lemma finite_object F f o : finite_files F -> finite_files {| sources := sources F; objects := fun g => if path_eqb g f then o else objects F g |}.
Proof.
  intros [l H]. exists (f :: l). intro g. cbn [sources objects]. destruct (path_eqb_spec g f) as [->|N]; [left; left; reflexivity|]. destruct (H g) as [I|I]; [left; right; exact I|right; exact I].
Qed.
Lemma finite_source F f s : finite_files F -> finite_files {| sources := fun g => if path_eqb g f then s else sources F g; objects := objects F |}.
Proof.
  intros [l H]. exists (f :: l). intro g. cbn [sources objects]. destruct (path_eqb_spec g f) as [->|N]; [left; left; reflexivity|]. destruct (H g) as [I|I]; [left; right; exact I|right; exact I].
Qed.
Lemma write_finite E F m G : finite_files F -> write_object E F m = Some G -> finite_files G.
Proof. intros Fi W. unfold write_object in W. destruct (e_writable E _); [|discriminate W]. injection W as <-. apply finite_object, Fi. Qed.
Lemma eval_in_order_finite E uc : forall order ld sc F r G, finite_files F -> eval_in_order E uc order ld sc F = (r, G) -> finite_files G.
Proof.
  induction order as [|p order IH]; intros ld sc F r G Fi H; cbn [eval_in_order] in H; [congruence|].
  destruct (passoc p ld) as [m|]; [|eapply IH; eassumption]. destruct (negb (m_needs_eval m)); [eapply IH; eassumption|].
  destruct (merge_scopes _ _ _) as [s|]; [|congruence]. destruct (eval_scope E p s) as [s'| | |]; try congruence.
  destruct uc; [|eapply IH; eassumption]. destruct (write_object E F _) as [F1|] eqn:W; [|congruence]. eapply IH; [eapply write_finite; eassumption|eassumption].
Qed.
Lemma compiles_finite E uc kv name F r G : finite_files F -> compiles E uc kv name F (r, G) -> finite_files G.
Proof.
  intros Fi C. remember (r, G) as x eqn:X. destruct C as [main sh t order _ _ _|e _|_]; [|congruence..].
  unfold compile_with in X. destruct (panicked t); [congruence|]. unfold load_main in X. destruct (any_dirty _ _); [congruence|].
  unfold eval_dependencies in X. destruct (eval_in_order E uc order (loaded sh) _ F) as [r1 F1] eqn:Ev. pose proof (eval_in_order_finite _ _ _ _ _ _ _ _ Fi Ev) as Fi1.
  destruct r1 as [ld| | |]; try congruence. destruct (merge_direct_dependencies _ _ _) as [m| | |]; try congruence.
  unfold finish in X. destruct (m_needs_eval _); [|congruence]. destruct (main_eval _ _ _ _); try congruence. destruct uc; [|congruence].
  destruct (write_object E F1 _) as [F2|] eqn:W; [|congruence]. assert (F2 = G) as <- by congruence. eapply write_finite; eassumption.
Qed.
