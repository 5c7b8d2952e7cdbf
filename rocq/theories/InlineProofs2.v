(** * InlineProofs2: writing out keeps programs free of circles, nested calls and capture. *)
From Verif Require Import Base BaseProofs Csvp Ast AstProofs Eval EvalSpec EvalProofs Options Sheet SheetSpec SheetProofs ParsedPlain ModuleProofs ProgramSpec ProgramProofs PropProgram PropImports InlineSpec InlineProofs.

Section Keeps.
  Variables (p : program) (args : list (str * node)).
  Hypothesis Fv : forall here x v, value_of p args here x v -> calls_nothing p v.
  Lemma code_value x nm e : assoc x (variables (pr_scope p)) = Some (NVar nm (VAst e)) -> forall here, value_of p args here x e.
  Proof. intros H here. eapply v_code. exact H. Qed.
  Lemma wo_quiet ps n n' : written_out p ps n n' -> calls_nothing p n -> calls_nothing p n'.
  Proof.
    intro W. induction W using wo_induction; intro Q.
    - exact Q.
    - apply quiet_infix in Q as [Q1 Q2]. apply quiet_infix. auto.
    - apply quiet_args in Q as [Q1 Q2]. apply quiet_args. split; [exact Q1|]. clear Q1. induction H as [|a b l l' Hab _ IH]; constructor; [apply Hab; inversion Q2; assumption|apply IH; inversion Q2; assumption].
    - apply IHW. apply (Fv 0 x). eapply code_value. exact H.
    - apply quiet_args in Q as [Q1 _]. congruence.
  Qed.
  Lemma wo_flat ps n n' : (forall f qs body nm, assoc f (functions (pr_scope p)) = Some (NFn qs body nm) -> flat p body) -> written_out p ps n n' -> flat p n -> flat p n'.
  Proof.
    intros Ff W. assert (X : written_out p ps n n' /\ (flat p n -> flat p n')); [|apply X].
    induction W using wo_induction; split.
    - constructor.
    - auto.
    - constructor; [apply IHW|apply IHW0].
    - intros [A B]. split; [apply IHW|apply IHW0]; assumption.
    - apply wo_args. induction H as [|a b l l' [Hab _] _ IH]; constructor; assumption.
    - intro Q. apply flat_call in Q as [A B]. apply flat_call. assert (L : length es' = length es) by (symmetry; eapply Forall2_len; exact H). split.
      + intros qs body nm J. destruct (A _ _ _ J) as [A1 A2]. split; [congruence|]. clear A B J A1 L. induction H as [|a b l l' [Hab _] _ IH]; constructor; [eapply wo_quiet; [exact Hab|inversion A2; assumption]|apply IH; inversion A2; assumption].
      + clear A L. induction H as [|a b l l' [_ Hab] _ IH]; constructor; [apply Hab; inversion B; assumption|apply IH; inversion B; assumption].
    - eapply wo_name; [exact H|exact H0|exact H1|apply IHW].
    - intros _. apply IHW. apply quiet_flat. apply (Fv 0 x). eapply code_value. exact H.
    - eapply wo_call; [exact H|exact H0|exact H1|apply IHW].
    - intro Q. apply IHW. apply flat_call in Q as [A _]. destruct (A _ _ _ H) as [_ A2]. apply flat_subst; [eapply Ff; exact H|]. intros q a I. apply in_combine_r in I. rewrite Forall_forall in A2. apply A2. exact I.
  Qed.
  (** names that a formula written out mentions *)
  Lemma wo_refs (Q : str -> Prop) ps n n' :
    (forall here x v y, value_of p args here x v -> In y (ref_names v) -> Q y) ->
    (forall f qs body nm y, assoc f (functions (pr_scope p)) = Some (NFn qs body nm) -> In y (ref_names body) -> ~ In y qs -> Q y) ->
    written_out p ps n n' -> (forall y, In y (ref_names n) -> Q y) -> forall y, In y (ref_names n') -> Q y.
  Proof.
    intros Hv Hb W. induction W using wo_induction; intro H'; intros y Hy.
    - apply H'. exact Hy.
    - cbn [ref_names] in *. apply in_app_or in Hy as [Hy|Hy]; [apply IHW|apply IHW0]; auto; intros z Hz; apply H'; apply in_or_app; auto.
    - rewrite refs_call in *. apply in_flat_map in Hy as [b [Ib Hy]].
      induction H as [|a c l l' Hac _ IH]; [destruct Ib|]. destruct Ib as [<-|Ib]; [apply Hac; [intros z Hz; apply H'; cbn [flat_map]; apply in_or_app; auto|exact Hy]|apply IH; [|exact Ib]]. intros z Hz. apply H'. cbn [flat_map]. apply in_or_app. auto.
    - apply IHW; [|exact Hy]. intros z Hz. eapply (Hv 0 x e); [eapply code_value; exact H|exact Hz].
    - apply IHW; [|exact Hy]. intros z Hz. apply refs_subst in Hz as [[Hz Hn]|[q [a [I [_ Hz]]]]].
      + eapply Hb; [exact H|exact Hz|]. intro Iz. destruct (EvalRounds.combine_assoc_Some z qs es Iz) as [b Hb']; [congruence|]. congruence.
      + apply H'. rewrite refs_call. apply in_flat_map. exists a. split; [apply in_combine_r in I; exact I|exact Hz].
  Qed.
  (** the ranks of names and functions do not grow *)
  Lemma wo_rank (rank : str -> nat) K ps n n' :
    (forall here x v y w, value_of p args here x v -> In y (ref_names v) -> value_of p args here y w -> rank y < rank x) ->
    written_out p ps n n' -> calls_nothing p n -> forall here,
    (forall y w, In y (ref_names n) -> value_of p args here y w -> rank y < K) -> forall y w, In y (ref_names n') -> value_of p args here y w -> rank y < K.
  Proof.
    intros Hr W. induction W using wo_induction; intros Q here H' y w Hy Hw.
    - eapply H'; eassumption.
    - apply quiet_infix in Q as [Q1 Q2]. cbn [ref_names] in *. apply in_app_or in Hy as [Hy|Hy].
      + eapply (IHW Q1 here); [|exact Hy|exact Hw]. intros z v Hz. apply H'. apply in_or_app. auto.
      + eapply (IHW0 Q2 here); [|exact Hy|exact Hw]. intros z v Hz. apply H'. apply in_or_app. auto.
    - apply quiet_args in Q as [_ Q]. rewrite refs_call in *. apply in_flat_map in Hy as [b [Ib Hy]].
      induction H as [|a c l l' Hac _ IH]; [destruct Ib|]. inversion Q as [|? ? Qa Ql]; subst. destruct Ib as [<-|Ib].
      + eapply (Hac Qa here); [|exact Hy|exact Hw]. intros z v Hz. apply H'. cbn [flat_map]. apply in_or_app. auto.
      + apply IH; [exact Ql| |exact Ib]. intros z v Hz. apply H'. cbn [flat_map]. apply in_or_app. auto.
    - pose proof (code_value _ _ _ H here) as V. eapply (IHW (Fv _ _ _ V) here); [|exact Hy|exact Hw]. intros z v Hz Hv.
      pose proof (Hr _ _ _ _ _ V Hz Hv). pose proof (H' x e (or_introl eq_refl) V). lia.
    - apply quiet_args in Q as [Q1 _]. congruence.
  Qed.
  Lemma wo_call_rank (rank : str -> nat) K ps n n' :
    (forall f qs body nm g, assoc f (functions (pr_scope p)) = Some (NFn qs body nm) -> In g (call_names body) -> assoc g (functions (pr_scope p)) <> None -> rank g < rank f) ->
    written_out p ps n n' -> (forall g, In g (call_names n) -> assoc g (functions (pr_scope p)) <> None -> rank g < K) ->
    forall g, In g (call_names n') -> assoc g (functions (pr_scope p)) <> None -> rank g < K.
  Proof.
    intros Hr W. induction W using wo_induction; intros H' g Hg Dg.
    - apply H'; assumption.
    - cbn [call_names] in *. apply in_app_or in Hg as [Hg|Hg]; [apply IHW|apply IHW0]; auto; intros z Hz; apply H'; apply in_or_app; auto.
    - rewrite calls_call in *. destruct Hg as [<-|Hg]; [apply H'; [left; reflexivity|exact Dg]|]. apply in_flat_map in Hg as [b [Ib Hg]].
      assert (H2 : forall z, In z (flat_map call_names es) -> assoc z (functions (pr_scope p)) <> None -> rank z < K) by (intros z Hz; apply H'; right; exact Hz). clear H'.
      induction H as [|a c l l' Hac _ IH]; [destruct Ib|]. destruct Ib as [<-|Ib]; [apply Hac; auto; intros z Hz; apply H2; cbn [flat_map]; apply in_or_app; auto|apply IH; [exact Ib|]; intros z Hz; apply H2; cbn [flat_map]; apply in_or_app; auto].
    - apply IHW; [|exact Hg|exact Dg]. intros z Hz Dz. destruct (Dz (Fv 0 x e (code_value _ _ _ H 0) z Hz)).
    - apply IHW; [|exact Hg|exact Dg]. intros z Hz Dz. rewrite calls_call in H'. apply calls_subst in Hz as [Hz|[q [a [I [_ Hz]]]]].
      + pose proof (Hr _ _ _ _ _ H Hz Dz). assert (rank f < K) by (apply H'; [left; reflexivity|congruence]). lia.
      + apply H'; [|exact Dz]. right. apply in_flat_map. exists a. split; [apply in_combine_r in I; exact I|exact Hz].
  Qed.
End Keeps.

Section Conditions.
  Variables (p p' : program) (args : list (str * node)).
  Hypothesis In1 : inlined p p'.
  Lemma in_value_back here x v' : value_of p' args here x v' -> exists v, value_of p args here x v /\ written_out p [] v v'.
  Proof.
    intros [nm e A|t f text A L R|e A N B]; pose proof (proj1 (proj2 In1) x) as V; rewrite A in V.
    - destruct (assoc x (variables (pr_scope p))) as [g|] eqn:G; [|contradiction]. destruct g as [| | | | | | | | |k [|e'| | |]]; try contradiction. exists e'. split; [eapply v_code; exact G|exact V].
    - destruct (assoc x (variables (pr_scope p))) as [g|] eqn:G; [destruct g as [| | | | | | | | |k [|e'| | |]]; contradiction|]. exists (NRef text). split; [|constructor].
      apply (v_sheet _ _ _ _ t f); [exact G|apply (in_last p p' In1); exact L|apply (in_refers p p' In1); exact R].
    - destruct (assoc x (variables (pr_scope p))) as [g|] eqn:G; [destruct g as [| | | | | | | | |k [|e'| | |]]; contradiction|]. exists e. split; [|constructor].
      apply v_arg; [exact G| |exact B]. intros t f K. apply (in_binds p p' In1) in K. exact (N _ _ K).
  Qed.
  Lemma in_function f : (assoc f (functions (pr_scope p')) = None <-> assoc f (functions (pr_scope p)) = None)
    /\ forall qs body' nm', assoc f (functions (pr_scope p')) = Some (NFn qs body' nm') -> exists body nm, assoc f (functions (pr_scope p)) = Some (NFn qs body nm) /\ written_out p qs body body'.
  Proof.
    pose proof (proj2 (proj2 In1) f) as V. destruct (assoc f (functions (pr_scope p))) as [g|].
    - destruct (assoc f (functions (pr_scope p'))) as [g'|]; [|destruct g; contradiction]. split; [split; discriminate|]. intros qs b nm J. injection J as ->. destruct g; try contradiction. destruct V as [<- W]. eauto.
    - destruct (assoc f (functions (pr_scope p'))) as [g'|]; [contradiction|]. split; [tauto|]. intros qs b nm J. discriminate J.
  Qed.
  Lemma in_function_fwd f qs body nm : assoc f (functions (pr_scope p)) = Some (NFn qs body nm) -> exists body' nm', assoc f (functions (pr_scope p')) = Some (NFn qs body' nm').
  Proof.
    intro A. pose proof (proj2 (proj2 In1) f) as V. rewrite A in V. destruct (assoc f (functions (pr_scope p'))) as [g'|]; [|contradiction]. destruct g'; try contradiction. destruct V as [-> _]. eauto.
  Qed.
  Lemma in_cell r' c' n' : In r' (sheet_rows (pr_sheet p')) -> In c' (row_cells r') -> cell_ast c' = Some n' ->
    exists r c n, In r (sheet_rows (pr_sheet p)) /\ In c (row_cells r) /\ cell_ast c = Some n /\ written_out p [] n n'.
  Proof.
    intros I1 I2 A. apply In_nth_error in I1 as [i I1]. apply In_nth_error in I2 as [j I2]. destruct (Forall2_nth_left _ _ _ (proj1 In1) _ _ I1) as [r [Hr [_ [_ [_ Hc]]]]].
    destruct (Forall2_nth_left _ _ _ Hc _ _ I2) as [c [Hc1 [_ [_ M]]]]. rewrite A in M. destruct (cell_ast c) as [n|] eqn:An; [|contradiction]. exists r, c, n. split; [eapply nth_error_In; exact Hr|]. split; [eapply nth_error_In; exact Hc1|]. auto.
  Qed.
  Lemma in_quiet n : calls_nothing p' n <-> calls_nothing p n.
  Proof. unfold calls_nothing. split; intros H f Hf; apply (in_function f); apply H; exact Hf. Qed.
  Lemma in_flat n : flat p n -> flat p' n.
  Proof.
    induction n using node_induction; intro Q; try exact I.
    - apply flat_call in Q as [A B]. apply flat_call. split.
      + intros qs body' nm' J. destruct (proj2 (in_function _) _ _ _ J) as [body [nm [J' _]]]. destruct (A _ _ _ J') as [L C]. split; [exact L|]. rewrite Forall_forall in *. intros e He. apply in_quiet. auto.
      + rewrite Forall_forall in *. auto.
    - destruct Q. split; auto.
  Qed.
  Lemma in_good_fills : good_fills (sheet_rows (pr_sheet p)) -> good_fills (sheet_rows (pr_sheet p')).
  Proof.
    intros G i r' Hr' Nf. destruct (Forall2_nth_left _ _ _ (proj1 In1) _ _ Hr') as [r [Hr [If _]]]. rewrite If in Nf. destruct (G _ _ Hr Nf) as [A [B C]].
    unfold row_after, copies, unbounded in *. rewrite (in_first p p' In1), (in_room p p' In1), If. split; [exact A|]. split; [exact B|]. intro U. specialize (C U). rewrite C. eapply Forall2_len. exact (proj1 In1).
  Qed.
  Lemma in_uncaptured : uncaptured_names p args -> uncaptured_names p' args.
  Proof.
    intros [Uc [Uv Uf]].
    assert (Sp : forall y, second_parameter p' y -> second_parameter p y) by (intros y [f [qs [b [nm [J I]]]]]; destruct (proj2 (in_function f) _ _ _ J) as [b0 [nm0 [J' _]]]; exists f, qs, b0, nm0; auto).
    split; [|split].
    - intros r' c' n' x I1 I2 A Hx Sx. apply Sp in Sx. destruct (in_cell _ _ _ I1 I2 A) as [r [c [n [J1 [J2 [A' W]]]]]]. revert Sx. eapply (wo_refs p args (fun y => ~ second_parameter p y)); [| |exact W| |exact Hx].
      + intros here z v y V Hy. eapply Uv; eassumption.
      + intros f qs body nm y J Hy Ny. eapply Uf; eassumption.
      + intros y Hy. eapply Uc; [exact J1|exact J2|exact A'|exact Hy].
    - intros here y v' x V Hx Sx. apply Sp in Sx. destruct (in_value_back _ _ _ V) as [v [V' W]]. revert Sx. eapply (wo_refs p args (fun y => ~ second_parameter p y)); [| |exact W| |exact Hx].
      + intros here' z w y' Vz Hy. eapply Uv; eassumption.
      + intros f qs body nm y' J Hy Ny. eapply Uf; eassumption.
      + intros y' Hy. eapply Uv; [exact V'|exact Hy].
    - intros f qs body' nm' x J Hx Nx Sx. apply Sp in Sx. destruct (proj2 (in_function f) _ _ _ J) as [body [nm [J' W]]].
      assert (X : In x qs \/ ~ second_parameter p x); [|destruct X; contradiction]. eapply (wo_refs p args (fun y => In y qs \/ ~ second_parameter p y)); [| |exact W| |exact Hx].
      + intros here' z w y' Vz Hy. right. eapply Uv; eassumption.
      + intros g rs b nmg y' Jg Hy Ny. right. eapply Uf; eassumption.
      + intros y' Hy. destruct (in_dec (list_eq_dec N.eq_dec) y' qs) as [Iq|Nq]; [left; exact Iq|right]. eapply Uf; [exact J'|exact Hy|exact Nq].
  Qed.
  Lemma in_no_circles b1 b2 : no_circles p args b1 -> flat_calls p args b2 -> no_circles p' args b1.
  Proof.
    intros [rank [Hb Hr]] [_ [Fv _]]. exists rank. split; [exact Hb|]. intros here x v' y w' V Hy Hw. destruct (in_value_back _ _ _ V) as [v [V1 W]]. destruct (in_value_back _ _ _ Hw) as [w [W1 _]].
    eapply (wo_rank p args Fv rank (rank x) [] v v' Hr W (Fv _ _ _ V1) here); [|exact Hy|exact W1]. intros z u Hz Hu. eapply Hr; eassumption.
  Qed.
  Lemma in_flat_calls b2 : flat_calls p args b2 -> flat_calls p' args b2.
  Proof.
    intros [Fc [Fv [Ff [rank [Hb Hr]]]]]. split; [|split; [|split]].
    - intros r' c' n' I1 I2 A. destruct (in_cell _ _ _ I1 I2 A) as [r [c [n [J1 [J2 [A' W]]]]]]. apply in_flat. eapply wo_flat; [exact Fv|exact Ff|exact W|]. eapply Fc; eassumption.
    - intros here x v' V. destruct (in_value_back _ _ _ V) as [v [V1 W]]. apply in_quiet. eapply wo_quiet; [exact Fv|exact W|]. eapply Fv. exact V1.
    - intros f qs body' nm' J. destruct (proj2 (in_function f) _ _ _ J) as [body [nm [J' W]]]. apply in_flat. eapply wo_flat; [exact Fv|exact Ff|exact W|]. eapply Ff. exact J'.
    - exists rank. split; [exact Hb|]. intros f qs body' nm' g J Hg Dg. destruct (proj2 (in_function f) _ _ _ J) as [body [nm [J' W]]].
      eapply (wo_call_rank p args Fv rank (rank f)); [exact Hr|exact W| |exact Hg|]; [intros z Hz Dz; eapply Hr; eassumption|]. intro K. apply Dg. apply in_function. exact K.
  Qed.
End Conditions.
