(** * EvalComplete: evaluation resolves everything when definitions are not recursive. *)
From Coq Require Import Permutation Relations.
From Verif Require Import Base BaseProofs Csvp Ast AstProofs Eval EvalSpec EvalProofs EvalRounds.

Lemma arity_subst sc s n : arity_ok sc n -> (forall p a, In (p, a) s -> arity_ok sc a) -> arity_ok sc (subst s n).
Proof.
  induction n using node_induction; cbn [subst]; intros Hp Hs; auto.
  - apply arity_call in Hp as [Hl Hp]. apply arity_call. split.
    + intros. rewrite map_length. eauto.
    + apply Forall_map. rewrite Forall_forall in *. intros x Hx. apply H; auto.
  - destruct Hp. split; auto.
  - destruct (assoc r s) eqn:E; [|exact I]. eapply Hs. apply assoc_In. exact E.
  - destruct v as [a0|a0|c0 f0|r0|r0 f0]; auto. cbn [arity_ok] in *. apply (H a0 eq_refl); auto.
Qed.

Section Complete.
  Variables (sc : scope) (pos : option address) (rv rf bound : str -> nat).
  Hypothesis Hps : plain_scope sc pos.
  Notation unf := (unf sc pos).
  Notation cbl := (calls_below sc pos rf).

  (** ** Invariants under unfolding *)
  Hypothesis Hrk : ranked sc pos rv rf.

  Lemma cbl_mono ps j k k' n : k <= k' -> cbl ps j k n -> cbl ps j k' n.
  Proof.
    intros Hk H. revert k' Hk. induction H as [ps j k n H1 H2 IH H3]. intros k' Hk. constructor.
    - intros f Hf Ha. specialize (H1 f Hf Ha). lia.
    - intros x v Hx Hn Hv. eapply IH; eauto.
    - intros x Hx Hp. specialize (H3 x Hx Hp). lia.
  Qed.
  Lemma cbl_parts ps j k n : cbl ps j k n ->
    (forall f, In f (call_names n) -> assoc f (functions sc) <> None -> rf f < k)
    /\ (forall x v, In x (ref_names n) -> ~ In x ps -> variable_node sc pos x = Some (Ok v) -> cbl [] 0 k v)
    /\ (forall x, In x (ref_names n) -> In x ps -> j <= k).
  Proof. intro H. inversion H; subst; auto. Qed.
  Lemma cbl_sub ps j k n a : cbl ps j k n -> incl (ref_names a) (ref_names n) -> incl (call_names a) (call_names n) -> cbl ps j k a.
  Proof.
    intros H Hr Hc. apply cbl_parts in H as [H1 [H2 H3]]. constructor.
    - intros f Hf. apply H1. auto.
    - intros x v Hx. apply H2. auto.
    - intros x Hx. apply H3. auto.
  Qed.
  Lemma below_cbl : forall r k n, r <= k -> below sc rv rf [] r n -> cbl [] 0 k n.
  Proof.
    induction r as [r IH] using lt_wf_ind. intros k n Hr [Hb1 Hb2]. constructor.
    - intros f Hf Ha. specialize (Hb2 f Hf Ha). lia.
    - intros x v Hx Hn Hv. assert (rv x < r) by (apply Hb1; auto; eapply variable_node_assoc; eauto).
      apply (IH (rv x)); [assumption|lia|]. eapply (proj1 Hrk); eauto.
    - intros x Hx [].
  Qed.
  Lemma not_in_params {A} x (ps : list str) (args : list A) : length args = length ps -> assoc x (combine ps args) = None -> ~ In x ps.
  Proof. intros Hl Ha Hp. destruct (combine_assoc_Some x ps args Hp Hl) as [b Hb]. congruence. Qed.
  (** a body below rank [r] with arguments whose calls are below [k] *)
  Lemma cbl_body r k ps args n : r <= k -> below sc rv rf ps r n -> length args = length ps -> Forall (cbl [] 0 k) args ->
    cbl [] 0 k (subst (combine ps args) n).
  Proof.
    intros Hr [Hb1 Hb2] Hl Ha. rewrite Forall_forall in Ha. constructor.
    - intros f Hf Hk. apply calls_subst in Hf as [Hf|[p [a [Hpa [_ Hf]]]]].
      + specialize (Hb2 f Hf Hk). lia.
      + apply combine_In in Hpa as [_ Hin]. apply (proj1 (cbl_parts _ _ _ _ (Ha a Hin)) f Hf Hk).
    - intros x v Hx _ Hv. apply refs_subst in Hx as [[Hx Hn]|[p [a [Hpa [_ Hx]]]]].
      + assert (rv x < r) by (apply Hb1; [assumption|eapply not_in_params; eauto|eapply variable_node_assoc; eauto]).
        apply (below_cbl (rv x)); [lia|]. eapply (proj1 Hrk); eauto.
      + apply combine_In in Hpa as [_ Hin]. apply (proj1 (proj2 (cbl_parts _ _ _ _ (Ha a Hin))) x v Hx); auto.
    - intros x _ [].
  Qed.
  Lemma cbl_args ps j k args f a : cbl ps j k (NCall args f) -> In a args -> cbl ps j k a.
  Proof.
    intros H Ha. eapply cbl_sub; [exact H|rewrite refs_call|rewrite calls_call]; intros x Hx; [|right]; apply in_flat_map; eauto.
  Qed.
  Lemma unf_cbl k n n' : cbl [] 0 k n -> unf n n' -> cbl [] 0 k n'.
  Proof.
    intros Hc Hu. revert Hc. induction Hu using unf_induction; intro Hc.
    - assumption.
    - apply cbl_parts in Hc as [_ [Hc _]]. eapply Hc; eauto. left. reflexivity.
    - assert (C1 : cbl [] 0 k l) by (eapply cbl_sub; [exact Hc| |]; intros x Hx; cbn [ref_names call_names]; apply in_or_app; auto).
      assert (C2 : cbl [] 0 k r) by (eapply cbl_sub; [exact Hc| |]; intros x Hx; cbn [ref_names call_names]; apply in_or_app; auto).
      apply IHHu1 in C1. apply IHHu2 in C2. apply cbl_parts in C1 as [A1 [A2 A3]], C2 as [B1 [B2 B3]].
      constructor; cbn [ref_names call_names].
      + intros g Hg. apply in_app_or in Hg as [|]; auto.
      + intros x v Hx. apply in_app_or in Hx as [|]; [apply A2|apply B2]; auto.
      + intros x _ [].
    - assert (C : Forall (cbl [] 0 k) args').
      { clear H. assert (D : forall a, In a args -> cbl [] 0 k a) by (intros a Ha; eapply cbl_args; eauto).
        clear Hc. induction H0; constructor; [apply H, D; left; reflexivity|apply IHForall2; intros; apply D; right; assumption]. }
      rewrite Forall_forall in C. constructor.
      + intros g Hg Hk. rewrite calls_call in Hg. destruct Hg as [<-|Hg].
        * apply (proj1 (cbl_parts _ _ _ _ Hc)); [rewrite calls_call; left; reflexivity|assumption].
        * apply in_flat_map in Hg as [y [Hy Hg]]. apply (proj1 (cbl_parts _ _ _ _ (C y Hy))); auto.
      + intros x v Hx _ Hv. rewrite refs_call in Hx. apply in_flat_map in Hx as [y [Hy Hx]].
        apply (proj1 (proj2 (cbl_parts _ _ _ _ (C y Hy))) x v); auto.
      + intros x _ [].
    - assert (C : Forall (cbl [] 0 k) args').
      { clear H1. assert (D : forall a, In a args -> cbl [] 0 k a) by (intros a Ha; eapply cbl_args; eauto).
        clear Hc H H0. induction H2; constructor; [apply H, D; left; reflexivity|apply IHForall2; intros; apply D; right; assumption]. }
      assert (F : rf f < k).
      { apply (proj1 (cbl_parts _ _ _ _ Hc)); [rewrite calls_call; left; reflexivity|congruence]. }
      eapply (cbl_body (rf f)); [lia|eapply (proj2 Hrk); eauto| |exact C].
      rewrite <- H0. symmetry. eapply Forall2_len; eauto.
  Qed.

  Hypothesis Har : arity_scope sc pos.
  Lemma unf_arity n n' : arity_ok sc n -> unf n n' -> arity_ok sc n'.
  Proof.
    intros Ha Hu. revert Ha. induction Hu using unf_induction; intro Ha.
    - assumption.
    - eapply (proj1 Har); eauto.
    - destruct Ha. split; auto.
    - apply arity_call in Ha as [Hl Ha]. apply arity_call. split.
      + intros. rewrite <- (Forall2_len _ _ _ H). eauto.
      + clear H Hl. induction H0; constructor; apply Forall_cons_iff in Ha as [? ?]; auto.
    - apply arity_call in Ha as [_ Ha]. apply arity_subst; [eapply (proj2 Har); eauto|].
      intros p a Hpa. apply combine_In in Hpa as [_ Hin].
      assert (C : Forall (arity_ok sc) args').
      { clear -H2 Ha. induction H2; constructor; apply Forall_cons_iff in Ha as [? ?]; auto. }
      rewrite Forall_forall in C. auto.
  Qed.

  Hypothesis Hne : nesting_scope sc pos rf bound.
  Lemma cbl_subst ps j k args n : cbl ps j k n -> length args = length ps -> Forall (cbl [] 0 j) args ->
    cbl [] 0 k (subst (combine ps args) n).
  Proof.
    intros Hc Hl Ha. rewrite Forall_forall in Ha. apply cbl_parts in Hc as [H1 [H2 H3]]. constructor.
    - intros f Hf Hk. apply calls_subst in Hf as [Hf|[p [a [Hpa [Hp Hf]]]]]; [auto|].
      apply combine_In in Hpa as [Hps' Hin]. specialize (H3 p Hp Hps').
      pose proof (proj1 (cbl_parts _ _ _ _ (Ha a Hin)) f Hf Hk). lia.
    - intros x v Hx _ Hv. apply refs_subst in Hx as [[Hx Hn]|[p [a [Hpa [Hp Hx]]]]].
      + eapply H2; eauto. eapply not_in_params; eauto.
      + apply combine_In in Hpa as [Hps' Hin]. specialize (H3 p Hp Hps').
        eapply cbl_mono; [exact H3|]. apply (proj1 (proj2 (cbl_parts _ _ _ _ (Ha a Hin))) x v Hx); auto.
    - intros x _ [].
  Qed.
  Lemma nesting_subst ps j args n : plain n -> nesting sc pos rf bound ps j n -> length args = length ps ->
    Forall (cbl [] 0 j) args -> Forall (nesting sc pos rf bound [] 0) args ->
    nesting sc pos rf bound [] 0 (subst (combine ps args) n).
  Proof.
    intros Hp Hn Hl Hc Ha. induction n using node_induction; cbn [subst]; auto.
    - apply nesting_call in Hn as [Hk Hn]. apply nesting_call. split.
      + intro Hf. specialize (Hk Hf). apply Forall_map. eapply Forall_impl; [|exact Hk].
        intros a0 H0. eapply cbl_subst; eauto.
      + apply Forall_map. apply plain_call in Hp. rewrite Forall_forall in *. intros x Hx. apply H; auto.
    - destruct Hp, Hn. split; auto.
    - destruct (assoc r (combine ps args)) eqn:E; [|exact I]. apply assoc_In in E. apply combine_In in E as [_ E].
      rewrite Forall_forall in Ha. auto.
    - destruct Hp.
  Qed.
  Lemma unf_nesting n n' : nesting sc pos rf bound [] 0 n -> unf n n' -> nesting sc pos rf bound [] 0 n'.
  Proof.
    intros Hn Hu. revert Hn. induction Hu using unf_induction; intro Hn.
    - assumption.
    - eapply (proj1 (proj2 Hne)); eauto.
    - destruct Hn. split; auto.
    - apply nesting_call in Hn as [Hk Hn]. apply nesting_call. split.
      + intro Hf. specialize (Hk Hf). clear H0 Hn.
        induction H; constructor; apply Forall_cons_iff in Hk as [? ?]; auto. eapply unf_cbl; eauto.
      + clear H Hk. induction H0; constructor; apply Forall_cons_iff in Hn as [? ?]; auto.
    - apply nesting_call in Hn as [Hk Hn].
      assert (Hf : assoc f (functions sc) <> None) by congruence. specialize (Hk Hf).
      destruct (proj2 Hps _ _ H) as [ps' [body' [name' [E Hb]]]]. inversion E; subst ps' body' name'.
      apply (nesting_subst ps (bound f)); [assumption|eapply (proj2 (proj2 Hne)); eauto| | |].
      + rewrite <- H0. symmetry. eapply Forall2_len; eauto.
      + clear -H1 Hk Hrk. induction H1; constructor; apply Forall_cons_iff in Hk as [? ?]; auto. eapply unf_cbl; eauto.
      + clear -H2 Hn. induction H2; constructor; apply Forall_cons_iff in Hn as [? ?]; auto.
  Qed.

  Hypothesis Hhy : hygienic sc pos.
  Definition good (n : node) : Prop :=
    plain n /\ uncaptured sc [] n /\ arity_ok sc n /\ nesting sc pos rf bound [] 0 n.
  Lemma unf_good n n' : good n -> unf n n' -> good n'.
  Proof.
    intros [H1 [H2 [H3 H4]]] U. split; [eapply unf_plain; eauto|].
    split; [eapply unf_uncaptured; eauto|]. split; [eapply unf_arity; eauto|eapply unf_nesting; eauto].
  Qed.

  (** ** A round removes the names of the highest rank *)
  (** names of rank [K] only among [vs], [fs] *)
  Definition remaining (K : nat) (vs fs : list str) (n : node) : Prop :=
    (forall x, In x (ref_names n) -> assoc x (variables sc) <> None -> rv x < K \/ In x vs)
    /\ (forall f, In f (call_names n) -> assoc f (functions sc) <> None -> rf f < K \/ In f fs).

  Lemma eval_variables_remaining K fs m :
    Forall (fun kv => variable_node sc pos (fst kv) = Some (Ok (snd kv)) /\ rv (fst kv) <= K) m ->
    forall n, good n -> remaining K (map fst m) fs n ->
    good (eval_variables m n) /\ remaining K [] fs (eval_variables m n).
  Proof.
    induction 1 as [|[x v] m [Hx Hr] Hm IH]; intros n Hg Hn; [auto|]. cbn [eval_variables fst snd map] in *.
    apply IH.
    - eapply unf_good; [exact Hg|]. apply replace_unf; [apply Hg|assumption].
    - destruct Hn as [Hv Hf]. destruct (proj1 Hrk _ _ Hx) as [Bv Bf].
      rewrite replace_is_subst. split.
      + intros y Hy Hk. apply refs_subst in Hy as [[Hy Ha]|[p [a [[E|[]] [_ Hy]]]]].
        * destruct (Hv y Hy Hk) as [|[<-|Hi]]; auto. cbn [assoc] in Ha. rewrite str_eqb_refl in Ha. discriminate.
        * inversion E; subst. left. assert (rv y < rv p) by (apply Bv; auto). lia.
      + intros f Hy Hk. apply calls_subst in Hy as [Hy|[p [a [[E|[]] [_ Hy]]]]]; [auto|].
        inversion E; subst. left. assert (rf f < rv p) by (apply Bf; auto). lia.
  Qed.

  Lemma call_function_ok f fn n : plain n -> assoc f (functions sc) = Some fn -> arity_ok sc n ->
    exists n', call_function f fn n = Ok n'.
  Proof.
    intros Hp Hf. destruct (proj2 Hps _ _ Hf) as [ps [body [name [-> Hb]]]]. revert Hp.
    induction n using node_induction; intros Hp Ha; try (eexists; reflexivity); try contradiction.
    - apply plain_call in Hp. apply arity_call in Ha as [Hl Ha]. destruct (str_eqb_spec n f) as [->|Hn].
      + cbn [call_function]. rewrite str_eqb_refl. rewrite (Hl _ _ _ Hf), Nat.eqb_refl. eauto.
      + rewrite call_function_other by (apply str_eqb_neq; exact Hn).
        assert (G : exists l', call_args f (NFn ps body name) a = Ok l').
        { clear Hl. induction H as [|x l Hx Hl IH]; [eexists; reflexivity|].
          apply Forall_cons_iff in Hp as [Hp1 Hp2], Ha as [Ha1 Ha2].
          destruct (Hx Hp1 Ha1) as [x' Hx']. destruct (IH Hp2 Ha2) as [l' Hl'].
          exists (x' :: l'). cbn. fold (call_args f (NFn ps body name)). rewrite Hx', Hl'. reflexivity. }
        destruct G as [l' ->]. eexists. reflexivity.
    - destruct Hp as [Hp1 Hp2], Ha as [Ha1 Ha2]. destruct (IHn1 Hp1 Ha1) as [x Hx], (IHn2 Hp2 Ha2) as [y Hy].
      cbn [call_function]. rewrite Hx, Hy. eexists. reflexivity.
  Qed.
  Lemma call_function_names f fn n n' : plain n -> uncaptured sc [] n -> nesting sc pos rf bound [] 0 n ->
    assoc f (functions sc) = Some fn -> call_function f fn n = Ok n' ->
    (forall g, In g (call_names n') -> assoc g (functions sc) <> None -> (In g (call_names n) /\ g <> f) \/ rf g < rf f)
    /\ (forall x, In x (ref_names n') -> assoc x (variables sc) <> None -> In x (ref_names n) \/ rv x < rf f).
  Proof.
    intros Hp Hu Hn Hf. destruct (proj2 Hps _ _ Hf) as [ps [body [name [-> Hb]]]].
    revert n' Hp Hu Hn. induction n using node_induction; intros n' Hp Hu Hn H'; try contradiction;
      try (inversion H'; subst; split; [intros ? []|auto]; fail).
    - apply nesting_call in Hn as [Hc Hn]. destruct (str_eqb_spec n f) as [->|Hnf].
      + cbn [call_function] in H'. rewrite str_eqb_refl in H'.
        destruct (length a =? length ps) eqn:E; [|discriminate]. apply Nat.eqb_eq in E. inversion H'; subst n'. clear H'.
        rewrite (call_root sc f ps body name a Hf E Hu).
        assert (Hk : assoc f (functions sc) <> None) by congruence. specialize (Hc Hk).
        destruct (proj2 Hrk _ _ _ _ Hf) as [Bv Bf]. split.
        * intros g Hg Hgk. right. apply calls_subst in Hg as [Hg|[p [b [Hpa [_ Hg]]]]]; [auto|].
          apply combine_In in Hpa as [_ Hin]. rewrite Forall_forall in Hc.
          pose proof (proj1 (cbl_parts _ _ _ _ (Hc b Hin)) g Hg Hgk). pose proof (proj1 Hne f). lia.
        * intros x Hx Hxk. apply refs_subst in Hx as [[Hx Ha]|[p [b [Hpa [_ Hx]]]]].
          -- right. apply Bv; auto. eapply not_in_params; eauto.
          -- left. apply combine_In in Hpa as [_ Hin]. rewrite refs_call. apply in_flat_map. eauto.
      + rewrite call_function_other in H' by (apply str_eqb_neq; exact Hnf).
        apply bind_ok_inv in H' as [a' [Ha H']]. inversion H'; subst. clear H'.
        apply call_args_inv in Ha. apply plain_call in Hp. apply uncaptured_call in Hu.
        rewrite !calls_call, !refs_call.
        assert (G : (forall g, In g (flat_map call_names a') -> assoc g (functions sc) <> None ->
                       (In g (flat_map call_names a) /\ g <> f) \/ rf g < rf f)
                 /\ (forall x, In x (flat_map ref_names a') -> assoc x (variables sc) <> None ->
                       In x (flat_map ref_names a) \/ rv x < rf f)).
        { clear Hc Hnf. revert H Hp Hu Hn. induction Ha as [|y z l l' Hyz Hl IH]; intros; [split; intros ? []|].
          apply Forall_cons_iff in H as [? ?], Hp as [? ?], Hu as [? ?], Hn as [? ?].
          destruct IH as [I1 I2]; auto. destruct (H z) as [J1 J2]; auto. cbn [flat_map]. split.
          - intros g Hg Hk. apply in_app_or in Hg as [Hg|Hg].
            + destruct (J1 g Hg Hk) as [[? ?]|]; auto. left. split; [apply in_or_app|]; auto.
            + destruct (I1 g Hg Hk) as [[? ?]|]; auto. left. split; [apply in_or_app|]; auto.
          - intros g Hg Hk. apply in_app_or in Hg as [Hg|Hg].
            + destruct (J2 g Hg Hk); auto. left. apply in_or_app; auto.
            + destruct (I2 g Hg Hk); auto. left. apply in_or_app; auto. }
        destruct G as [G1 G2]. split; [|exact G2]. intros g [<-|Hg] Hk; [left; split; [left; reflexivity|assumption]|].
        destruct (G1 g Hg Hk) as [[? ?]|]; auto. left. split; [right|]; auto.
    - destruct Hp as [Hp1 Hp2], Hn as [Hn1 Hn2]. apply uncaptured_infix in Hu as [Hu1 Hu2].
      cbn [call_function] in H'. apply bind_ok_inv in H' as [l' [Hl H']]. apply bind_ok_inv in H' as [r' [Hr H']].
      inversion H'; subst. destruct (IHn1 l') as [I1 I2]; auto. destruct (IHn2 r') as [J1 J2]; auto.
      cbn [call_names ref_names]. split.
      + intros g Hg Hk. apply in_app_or in Hg as [Hg|Hg].
        * destruct (I1 g Hg Hk) as [[? ?]|]; auto. left. split; [apply in_or_app|]; auto.
        * destruct (J1 g Hg Hk) as [[? ?]|]; auto. left. split; [apply in_or_app|]; auto.
      + intros g Hg Hk. apply in_app_or in Hg as [Hg|Hg].
        * destruct (I2 g Hg Hk); auto. left. apply in_or_app; auto.
        * destruct (J2 g Hg Hk); auto. left. apply in_or_app; auto.
  Qed.
  Lemma eval_functions_remaining K : forall fs n, (forall f, In f fs -> assoc f (functions sc) <> None -> rf f <= K) ->
    good n -> remaining K [] fs n -> exists n', eval_functions sc fs n = Ok n' /\ good n' /\ remaining K [] [] n'.
  Proof.
    induction fs as [|f fs IH]; intros n Hr Hg Hn; cbn [eval_functions]; [eauto|].
    destruct (assoc f (functions sc)) as [fn|] eqn:E.
    - destruct Hg as [G1 [G2 [G3 G4]]].
      destruct (call_function_ok f fn n G1 E G3) as [n1 H1]. rewrite H1. cbn [bind].
      destruct (call_function_names f fn n n1 G1 G2 G4 E H1) as [C1 C2].
      assert (rf f <= K) by (apply Hr; [left; reflexivity|congruence]).
      apply IH.
      + intros g Hg. apply Hr. right. assumption.
      + eapply unf_good; [repeat split; eassumption|]. eapply call_function_unf; eauto.
      + destruct Hn as [Hv Hf]. split.
        * intros x Hx Hk. destruct (C2 x Hx Hk) as [Hx'|]; [|left; lia].
          destruct (Hv x Hx' Hk) as [|[]]; auto.
        * intros g Hg Hk. destruct (C1 g Hg Hk) as [[Hg' Hd]|]; [|left; lia].
          destruct (Hf g Hg' Hk) as [|[|]]; auto. congruence.
    - apply IH; auto.
      + intros g Hgi. apply Hr. right. assumption.
      + destruct Hn as [Hv Hf]. split; [assumption|]. intros g Hg' Hk. destruct (Hf g Hg' Hk) as [|[<-|]]; auto. congruence.
  Qed.

  Lemma eval_round_down K vs fs n :
    (forall x, In x vs <-> In x (ref_names n) /\ assoc x (variables sc) <> None) ->
    (forall f, In f fs <-> In f (call_names n) /\ assoc f (functions sc) <> None) ->
    good n -> below sc rv rf [] (S K) n ->
    exists n', eval_round sc pos vs fs n = Ok n' /\ good n' /\ below sc rv rf [] K n'.
  Proof.
    intros Hvs Hfs Hg [Hv Hf]. unfold eval_round.
    destruct (resolve_variables_ok sc pos Hps vs) as [m [Hm [Hmv [Hk _]]]]. rewrite Hm. cbn [bind].
    destruct (eval_variables_remaining K fs m) with (n := n) as [G1 G2]; auto.
    - rewrite Forall_forall in *. intros [x v] Hx. split; [apply (Hmv _ Hx)|]. simpl.
      assert (Hx' : In x (map fst m)) by (apply (in_map fst) in Hx; exact Hx).
      apply Hk in Hx' as [Hx1 Hx2]. apply Hvs in Hx1 as [Hx1 _].
      assert (rv x < S K) by (apply Hv; auto). lia.
    - split.
      + intros x Hx Hxk. right. apply Hk. split; [apply Hvs; auto|assumption].
      + intros f Hx Hfk. right. apply Hfs. auto.
    - destruct (eval_functions_remaining K fs (eval_variables m n)) as [n' [H1 [H2 [H3 H4]]]]; auto.
      + intros f Hin Hfk. apply Hfs in Hin as [Hin _]. assert (rf f < S K) by (apply Hf; auto). lia.
      + exists n'. split; [assumption|]. split; [assumption|]. split.
        * intros x Hx _ Hxk. destruct (H3 x Hx Hxk) as [|[]]; auto.
        * intros f Hx Hfk. destruct (H4 f Hx Hfk) as [|[]]; auto.
  Qed.

  (** some name of rank at least [K] *)
  Definition reaches (K : nat) (r : references) : Prop :=
    (exists x, In x (ref_variables r) /\ K <= rv x) \/ (exists f, In f (ref_functions r) /\ K <= rf f).
  Lemma below_or_reaches K n : below sc rv rf [] K n \/ reaches K (extract_references sc n).
  Proof.
    destruct (existsb (fun x => K <=? rv x) (ref_variables (extract_references sc n))) eqn:E1.
    - right. left. apply existsb_exists in E1 as [x [Hx Hr]]. apply Nat.leb_le in Hr. eauto.
    - destruct (existsb (fun x => K <=? rf x) (ref_functions (extract_references sc n))) eqn:E2.
      + right. right. apply existsb_exists in E2 as [x [Hx Hr]]. apply Nat.leb_le in Hr. eauto.
      + left. split.
        * intros x Hx _ Hk. assert (Hi : In x (ref_variables (extract_references sc n))) by (apply refs_vars_spec; auto).
          destruct (Nat.lt_ge_cases (rv x) K) as [|Hge]; [assumption|]. apply Nat.leb_le in Hge.
          assert (existsb (fun x => K <=? rv x) (ref_variables (extract_references sc n)) = true) by (apply existsb_exists; eauto).
          congruence.
        * intros x Hx Hk. assert (Hi : In x (ref_functions (extract_references sc n))) by (apply refs_fns_spec; auto).
          destruct (Nat.lt_ge_cases (rf x) K) as [|Hge]; [assumption|]. apply Nat.leb_le in Hge.
          assert (existsb (fun x => K <=? rf x) (ref_functions (extract_references sc n)) = true) by (apply existsb_exists; eauto).
          congruence.
  Qed.
  Lemma set_eqb_In a b x : set_eqb a b = true -> In x b -> In x a.
  Proof.
    unfold set_eqb. rewrite andb_true_iff, !forallb_forall. intros [_ H] Hx. apply str_in_spec. auto.
  Qed.
  Lemma refs_progress K n last : below sc rv rf [] K n -> (last = no_references \/ reaches K last) ->
    refs_is_empty (extract_references sc n) = false -> refs_eqb (extract_references sc n) last = false.
  Proof.
    intros [Hv Hf] Hl He. destruct (refs_eqb _ _) eqn:E; [exfalso|reflexivity].
    unfold refs_eqb in E. apply andb_true_iff in E as [E1 E2]. destruct Hl as [->|[[x [Hx Hr]]|[f [Hx Hr]]]].
    - unfold refs_is_empty in He. cbn [no_references ref_functions ref_variables] in E1, E2.
      unfold set_eqb in E1, E2. destruct (ref_functions (extract_references sc n)); [|discriminate].
      destruct (ref_variables (extract_references sc n)); discriminate.
    - apply (set_eqb_In _ _ x E2) in Hx. apply refs_vars_spec in Hx as [Hx Hk].
      assert (rv x < K) by (apply Hv; auto). lia.
    - apply (set_eqb_In _ _ f E1) in Hx. apply refs_fns_spec in Hx as [Hx Hk].
      assert (rf f < K) by (apply Hf; auto). lia.
  Qed.
  Lemma eval_loop_complete ord : is_order ord -> forall K fuel k last n, K < fuel -> good n -> below sc rv rf [] K n ->
    (last = no_references \/ reaches K last) ->
    exists n', eval_loop fuel ord k sc pos last n = Ok n' /\ nothing_known sc n'.
  Proof.
    intro Ho. induction K as [|K IH]; intros fuel k last n Hf Hg Hb Hl.
    - destruct fuel as [|fuel]; [lia|]. cbn [eval_loop].
      assert (E : nothing_known sc n).
      { destruct Hb as [Hv Hc]. split.
        - intros x Hx. destruct (assoc x (variables sc)) eqn:E; [|reflexivity].
          assert (rv x < 0) by (apply Hv; auto; congruence). lia.
        - intros x Hx. destruct (assoc x (functions sc)) eqn:E; [|reflexivity].
          assert (rf x < 0) by (apply Hc; auto; congruence). lia. }
      exists n. split; [|assumption]. apply empty_refs in E. rewrite E. reflexivity.
    - destruct (below_or_reaches K n) as [Hk|Hk].
      + apply IH; auto; [lia|]. destruct Hl as [->|Hl]; [auto|right].
        destruct Hl as [[x [? ?]]|[x [? ?]]]; [left|right]; exists x; split; auto; lia.
      + destruct fuel as [|fuel]; [lia|]. cbn [eval_loop].
        destruct (refs_is_empty (extract_references sc n)) eqn:E.
        * exists n. split; [reflexivity|]. apply empty_refs. assumption.
        * rewrite (refs_progress _ _ _ Hb Hl E). cbn [orb].
          destruct (eval_round_down K (ord (2 * k) (ref_variables (extract_references sc n)))
                      (ord (2 * k + 1) (ref_functions (extract_references sc n))) n) as [n1 [H1 [H2 H3]]]; auto.
          -- intro x. rewrite <- refs_vars_spec. split; intro Hx.
             ++ eapply Permutation_in; [apply Ho|exact Hx].
             ++ eapply Permutation_in; [apply Permutation_sym, Ho|exact Hx].
          -- intro x. rewrite <- refs_fns_spec. split; intro Hx.
             ++ eapply Permutation_in; [apply Ho|exact Hx].
             ++ eapply Permutation_in; [apply Permutation_sym, Ho|exact Hx].
          -- rewrite H1. cbn [bind]. apply IH; auto. lia.
  Qed.
  Lemma eval_complete ord fuel K n : is_order ord -> good n -> below sc rv rf [] K n -> K < fuel ->
    exists n', ast_eval fuel ord sc pos n = Ok n' /\ nothing_known sc n' /\ expands sc pos n n'.
  Proof.
    intros Ho Hg Hb Hf. destruct (eval_loop_complete ord Ho K fuel 0 no_references n Hf Hg Hb (or_introl eq_refl)) as [n' [H1 H2]].
    exists n'. split; [exact H1|]. split; [assumption|]. destruct Hg as [G1 [G2 _]].
    eapply eval_sound; eauto.
  Qed.
End Complete.
