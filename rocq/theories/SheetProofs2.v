(** * SheetProofs2: variables bound in a sheet, scopes. *)
From Coq Require Import Permutation Sorted.
From Verif Require Import Base BaseProofs Csvp Ast AstProofs AstParser Eval EvalSpec EvalRounds ParsedPlain Options Sheet SheetSpec SheetProofs.

(** ** Inserting many *)
Notation insert_all := (fold_left (fun m kv => assoc_insert (fst kv) (snd kv) m)).
Lemma insert_all_other {A} k : forall (l m : list (str * A)), ~ In k (map fst l) -> assoc k (insert_all l m) = assoc k m.
Proof.
  induction l as [|[k' v] l IH]; intros m H; cbn [fold_left fst snd]; [reflexivity|]. cbn [map fst] in H.
  rewrite IH by (intro C; apply H; right; exact C). apply assoc_insert_other. intros ->. apply H. left. reflexivity.
Qed.
Lemma insert_all_nodup {A} : forall (l m : list (str * A)), NoDup (map fst m) -> NoDup (map fst (insert_all l m)).
Proof. induction l as [|[k v] l IH]; intros m H; cbn [fold_left fst snd]; auto using assoc_insert_nodup. Qed.
Lemma assoc_not_in {A} k : forall l : list (str * A), ~ In k (map fst l) -> assoc k l = None.
Proof.
  induction l as [|[k' v] l IH]; intro H; cbn [assoc]; [reflexivity|]. destruct (str_eqb_spec k k') as [->|E]; [destruct H; left; reflexivity|].
  apply IH. intro C. apply H. right. exact C.
Qed.
Lemma assoc_in_keys {A} k : forall l : list (str * A), In k (map fst l) -> assoc k l <> None.
Proof.
  induction l as [|[k' v] l IH]; intro H; cbn [assoc]; [destruct H|]. destruct (str_eqb_spec k k') as [->|E]; [discriminate|].
  apply IH. cbn [map fst] in H. destruct H as [H|H]; [congruence|exact H].
Qed.
Lemma insert_all_assoc {A} k : forall (l m : list (str * A)), NoDup (map fst l) ->
  assoc k (insert_all l m) = match assoc k l with Some v => Some v | None => assoc k m end.
Proof.
  induction l as [|[k' v] l IH]; intros m H; cbn [fold_left fst snd assoc]; [reflexivity|]. cbn [map fst] in H. inversion H as [|? ? H1 H2]; subst.
  destruct (str_eqb_spec k k') as [->|E].
  - rewrite insert_all_other by exact H1. apply assoc_insert_same.
  - rewrite IH by exact H2. destruct (assoc k l); [reflexivity|]. now apply assoc_insert_other.
Qed.

(** ** Scopes *)
Definition unique_keys (sc : scope) : Prop := NoDup (map fst (functions sc)) /\ NoDup (map fst (variables sc)).
Lemma merge_variables_assoc sc vars x : NoDup (map fst (variables sc)) -> NoDup (map fst vars) ->
  assoc x (variables (merge_variables sc vars)) = match assoc x (variables sc) with Some v => Some v | None => assoc x vars end.
Proof.
  intros H1 H2. unfold merge_variables. cbn [variables]. rewrite insert_all_assoc by exact H1.
  destruct (assoc x (variables sc)); [reflexivity|]. rewrite insert_all_assoc by exact H2. destruct (assoc x vars); reflexivity.
Qed.
Lemma merge_variables_nodup sc vars : NoDup (map fst (variables (merge_variables sc vars))).
Proof. unfold merge_variables. cbn [variables]. do 2 apply insert_all_nodup. constructor. Qed.
Lemma insert_new_assoc k o m x :
  assoc x (insert_new k o m) = match assoc x m with Some v => Some v | None => if str_eqb x k then o else None end.
Proof.
  unfold insert_new. destruct (str_eqb_spec x k) as [->|E].
  - destruct o as [v|].
    + destruct (has_key k m) eqn:K.
      * unfold has_key in K. destruct (assoc k m); [reflexivity|discriminate].
      * rewrite assoc_insert_same. unfold has_key in K. destruct (assoc k m); [discriminate|reflexivity].
    + destruct (assoc k m); reflexivity.
  - assert (assoc x (match o with Some v => if has_key k m then m else assoc_insert k v m | None => m end) = assoc x m) as ->.
    { destruct o as [v|]; [|reflexivity]. destruct (has_key k m); [reflexivity|]. now apply assoc_insert_other. }
    destruct (assoc x m); reflexivity.
Qed.
Lemma insert_new_nodup k o m : NoDup (map fst m) -> NoDup (map fst (insert_new k o m)).
Proof. intro H. unfold insert_new. destruct o; [|exact H]. destruct (has_key k m); auto using assoc_insert_nodup. Qed.
Lemma scope_merge_spec : forall other es sc x,
  let sc' := fold_left (merge_export other) es sc in
  assoc x (variables sc') = match assoc x (variables sc) with Some v => Some v | None => if str_in x es then assoc x (variables other) else None end
  /\ assoc x (functions sc') = match assoc x (functions sc) with Some v => Some v | None => if str_in x es then assoc x (functions other) else None end
  /\ exports sc' = exports sc.
Proof.
  intro other. induction es as [|e es IH]; intros sc x; cbn zeta; cbn [fold_left str_in].
  - split; [|split; [|reflexivity]]; match goal with |- ?a = match ?a with _ => _ end => destruct a; reflexivity end.
  - destruct (IH (merge_export other sc e) x) as [A [B C]]. rewrite A, B, C. unfold merge_export. cbn [variables functions exports].
    rewrite !insert_new_assoc. destruct (str_eqb_spec x e) as [->|E]; cbn [orb].
    + split; [|split; [|reflexivity]].
      * destruct (assoc e (variables sc)); [reflexivity|]. destruct (assoc e (variables other)); [reflexivity|]. destruct (str_in e es); reflexivity.
      * destruct (assoc e (functions sc)); [reflexivity|]. destruct (assoc e (functions other)); [reflexivity|]. destruct (str_in e es); reflexivity.
    + split; [|split; [|reflexivity]].
      * destruct (assoc x (variables sc)); reflexivity.
      * destruct (assoc x (functions sc)); reflexivity.
Qed.
Lemma scope_merge_unique other : forall es sc, unique_keys sc -> unique_keys (fold_left (merge_export other) es sc).
Proof.
  induction es as [|e es IH]; intros sc [H1 H2]; cbn [fold_left]; [split; assumption|]. apply IH.
  split; unfold merge_export; cbn [functions variables]; apply insert_new_nodup; assumption.
Qed.

(** ** Variables of a sheet *)
Definition value_at (t : target) (f : option fill) (x : str) : node :=
  match t, f with
  | TRow y, Some f => NVar x (VRowRelative y f)
  | TRow y, None => NVar x (VRow y)
  | TCell i y, Some f => NVar x (VColumnRelative i f)
  | TCell i y, None => NVar x (VAbsolute {| addr_x := i; addr_y := y |})
  end.
(** all bindings in reading order *)
Fixpoint cell_events (y : nat) (f : option fill) (i : nat) (cs : list cell) : list (target * option fill * str) :=
  match cs with
  | [] => []
  | c :: cs => (match cell_var c with Some x => [(TCell i y, f, x)] | None => [] end) ++ cell_events y f (S i) cs
  end.
Fixpoint events (y : nat) (rs : list row) : list (target * option fill * str) :=
  match rs with
  | [] => []
  | r :: rs => (match row_var r with Some x => [(TRow y, row_fill r, x)] | None => [] end)
               ++ cell_events y (row_fill r) 0 (row_cells r) ++ events (S y) rs
  end.
Definition event_entry (e : target * option fill * str) : str * node := let '(t, f, x) := e in (x, value_at t f x).
Lemma cell_variables_events y r : forall cs i vars,
  cell_variables y r i cs vars = insert_all (map event_entry (cell_events y (row_fill r) i cs)) vars.
Proof.
  induction cs as [|c cs IH]; intros i vars; cbn [cell_variables cell_events]; [reflexivity|].
  rewrite IH, map_app, fold_left_app. f_equal. destruct (cell_var c) as [x|]; [|reflexivity].
  unfold cell_reference. destruct (row_fill r); reflexivity.
Qed.
Lemma row_variables_events : forall rs y vars, row_variables y rs vars = insert_all (map event_entry (events y rs)) vars.
Proof.
  induction rs as [|r rs IH]; intros y vars; cbn [row_variables events]; [reflexivity|].
  rewrite IH, cell_variables_events, !map_app, !fold_left_app. f_equal. f_equal. destruct (row_var r) as [x|]; [|reflexivity].
  unfold row_reference. destruct (row_fill r); reflexivity.
Qed.
Lemma cell_events_spec y f : forall cs i t g x, In (t, g, x) (cell_events y f i cs) <->
  exists j c, t = TCell (i + j) y /\ g = f /\ nth_error cs j = Some c /\ cell_var c = Some x.
Proof.
  induction cs as [|c cs IH]; intros i t g x; cbn [cell_events].
  - split; [intros []|]. intros [j [c [_ [_ [H _]]]]]. destruct j; discriminate.
  - rewrite in_app_iff, IH. split.
    + intros [H|[j [c' [-> [-> [H1 H2]]]]]].
      * destruct (cell_var c) as [x'|] eqn:E; [|destruct H]. destruct H as [H|[]]. injection H as <- <- <-.
        exists 0, c. rewrite Nat.add_0_r. auto.
      * exists (S j), c'. rewrite Nat.add_succ_r. auto.
    + intros [[|j] [c' [-> [-> [H1 H2]]]]]; cbn in H1.
      * injection H1 as ->. left. rewrite H2, Nat.add_0_r. left. reflexivity.
      * right. exists j, c'. rewrite Nat.add_succ_r. auto.
Qed.
Lemma events_spec : forall rs y t g x, In (t, g, x) (events y rs) <->
  (exists j r, t = TRow (y + j) /\ nth_error rs j = Some r /\ g = row_fill r /\ row_var r = Some x)
  \/ (exists i j r c, t = TCell i (y + j) /\ nth_error rs j = Some r /\ nth_error (row_cells r) i = Some c /\ g = row_fill r /\ cell_var c = Some x).
Proof.
  induction rs as [|r rs IH]; intros y t g x; cbn [events].
  - split; [intros []|]. intros [[j [r [_ [H _]]]]|[i [j [r [c [_ [H _]]]]]]]; destruct j; discriminate.
  - rewrite !in_app_iff, IH, cell_events_spec. split.
    + intros [H|[[j [c [-> [-> [H1 H2]]]]]|[[j [r' [-> [H1 [-> H2]]]]]|[i [j [r' [c [-> [H1 [H2 [-> H3]]]]]]]]]]].
      * destruct (row_var r) as [x'|] eqn:E; [|destruct H]. destruct H as [H|[]]. injection H as <- <- <-.
        left. exists 0, r. rewrite Nat.add_0_r. auto.
      * right. exists j, 0, r, c. rewrite Nat.add_0_r, Nat.add_0_l. auto.
      * left. exists (S j), r'. rewrite Nat.add_succ_r. auto.
      * right. exists i, (S j), r', c. rewrite Nat.add_succ_r. auto.
    + intros [[[|j] [r' [-> [H1 [-> H2]]]]]|[i [[|j] [r' [c [-> [H1 [H2 [-> H3]]]]]]]]]; cbn in H1.
      * injection H1 as ->. left. rewrite H2, Nat.add_0_r. left. reflexivity.
      * right. right. left. exists j, r'. rewrite Nat.add_succ_r. auto.
      * injection H1 as ->. right. left. exists i, c. rewrite Nat.add_0_r. auto.
      * right. right. right. exists i, j, r', c. rewrite Nat.add_succ_r. auto.
Qed.
Lemma events_binds s t g x : In (t, g, x) (events 0 (sheet_rows s)) <-> binds s x t g.
Proof.
  rewrite events_spec. unfold binds. split.
  - intros [[j [r [-> [H1 [-> H2]]]]]|[i [j [r [c [-> [H1 [H2 [-> H3]]]]]]]]]; cbn [Nat.add]; eauto 8.
  - destruct t as [y|i y].
    + intros [r [H1 [H2 ->]]]. left. exists y, r. auto.
    + intros [r [c [H1 [H2 [H3 ->]]]]]. right. exists i, y, r, c. auto.
Qed.
Definition before_event (a b : target * option fill * str) : Prop := before (fst (fst a)) (fst (fst b)).
Lemma sorted_app {A} (R : A -> A -> Prop) a b : StronglySorted R a -> StronglySorted R b -> (forall x y, In x a -> In y b -> R x y) ->
  StronglySorted R (a ++ b).
Proof.
  induction a as [|x a IH]; intros Ha Hb H; cbn; [exact Hb|]. inversion Ha as [|? ? H1 H2]; subst. constructor.
  - apply IH; auto. intros u v Hu Hv. apply H; [right; exact Hu|exact Hv].
  - apply Forall_app. split; [exact H2|]. apply Forall_forall. intros v Hv. apply H; [left; reflexivity|exact Hv].
Qed.
Lemma cell_events_sorted y f : forall cs i, StronglySorted before_event (cell_events y f i cs).
Proof.
  induction cs as [|c cs IH]; intro i; cbn [cell_events]; [constructor|]. apply sorted_app; [|apply IH|].
  - destruct (cell_var c); repeat constructor.
  - intros u [[t g] x] Hu Hv. destruct (cell_var c) as [x'|]; [|destruct Hu]. destruct Hu as [<-|[]].
    apply cell_events_spec in Hv as [j [c' [-> _]]]. unfold before_event. cbn. right. lia.
Qed.
Lemma events_sorted : forall rs y, StronglySorted before_event (events y rs).
Proof.
  induction rs as [|r rs IH]; intro y; cbn [events]; [constructor|]. apply sorted_app; [|apply sorted_app|].
  - destruct (row_var r); repeat constructor.
  - apply cell_events_sorted.
  - apply IH.
  - intros [[t g] x] [[t' g'] x'] Hu Hv. apply cell_events_spec in Hu as [j [c [-> _]]].
    apply events_spec in Hv as [[j' [r' [-> _]]]|[i [j' [r' [c' [-> _]]]]]]; unfold before_event; cbn; lia.
  - intros u [[t' g'] x'] Hu Hv. destruct (row_var r) as [n|]; [|destruct Hu]. destruct Hu as [<-|[]].
    rewrite in_app_iff, cell_events_spec, events_spec in Hv.
    destruct Hv as [[j [c [-> _]]]|[[j' [r' [-> _]]]|[i [j' [r' [c' [-> _]]]]]]]; unfold before_event; cbn; lia.
Qed.
Lemma before_irrefl t : ~ before t t.
Proof. destruct t; cbn; lia. Qed.
Lemma before_trans a b c : before a b -> before b c -> before a c.
Proof. destruct a, b, c; cbn; lia. Qed.
Lemma insert_all_last x : forall es m t f, StronglySorted before_event es -> In (t, f, x) es ->
  (forall t' f', In (t', f', x) es -> t' = t \/ before t' t) ->
  assoc x (insert_all (map event_entry es) m) = Some (value_at t f x).
Proof.
  induction es as [|[[t0 f0] x0] es IH]; intros m t f Hs Hi Hl; [destruct Hi|]. cbn [map fold_left event_entry fst snd].
  inversion Hs as [|? ? H1 H2]; subst. rewrite Forall_forall in H2.
  destruct (in_dec (list_eq_dec N.eq_dec) x (map fst (map event_entry es))) as [D|D].
  - assert (exists t1 f1, In (t1, f1, x) es) as [t1 [f1 D1]].
    { rewrite map_map in D. apply in_map_iff in D as [[[t1 f1] x1] [E D]]. cbn in E. subst x1. eauto. }
    destruct Hi as [Hi|Hi].
    + exfalso. injection Hi as -> -> ->. specialize (H2 _ D1). unfold before_event in H2. cbn in H2.
      destruct (Hl t1 f1 (or_intror D1)) as [->|B]; [exact (before_irrefl _ H2)|exact (before_irrefl _ (before_trans _ _ _ H2 B))].
    + apply IH; auto. intros t' f' H'. apply (Hl t' f'). right. exact H'.
  - rewrite insert_all_other by exact D. destruct Hi as [Hi|Hi].
    + injection Hi as -> -> ->. apply assoc_insert_same.
    + exfalso. apply D. rewrite map_map. apply in_map_iff. exists (t, f, x). split; [reflexivity|exact Hi].
Qed.
Lemma sheet_variables_last s x t f : last_binding s x t f -> assoc x (sheet_variables s) = Some (value_at t f x).
Proof.
  intros [H1 H2]. unfold sheet_variables. rewrite row_variables_events. apply insert_all_last.
  - apply events_sorted.
  - apply events_binds. exact H1.
  - intros t' f' H. apply events_binds in H. eauto.
Qed.
Lemma sheet_variables_none s x : (forall t f, ~ binds s x t f) -> assoc x (sheet_variables s) = None.
Proof.
  intro H. unfold sheet_variables. rewrite row_variables_events, insert_all_other; [reflexivity|].
  rewrite map_map. intro C. apply in_map_iff in C as [[[t f] x'] [E C]]. cbn in E. subst x'. apply events_binds in C. exact (H _ _ C).
Qed.
Lemma sheet_variables_nodup s : NoDup (map fst (sheet_variables s)).
Proof. unfold sheet_variables. rewrite row_variables_events. apply insert_all_nodup. constructor. Qed.
(** a name that is bound has a last binding *)
Lemma last_binding_exists s x t f : binds s x t f -> exists t' f', last_binding s x t' f'.
Proof.
  intro H. apply events_binds in H.
  assert (X : forall es, StronglySorted before_event es -> In (t, f, x) es ->
    exists t' f', In (t', f', x) es /\ forall t2 f2, In (t2, f2, x) es -> t2 = t' \/ before t2 t').
  { clear H. intros es. revert t f. induction es as [|[[t0 f0] x0] es IH]; intros t f Hs Hi; [destruct Hi|].
    inversion Hs as [|? ? H1 H2]; subst. rewrite Forall_forall in H2.
    destruct (in_dec (list_eq_dec N.eq_dec) x (map snd es)) as [D|D].
    - apply in_map_iff in D as [[[t1 f1] x1] [E D]]. cbn in E. subst x1. destruct (IH t1 f1 H1 D) as [t' [f' [A B]]].
      exists t', f'. split; [right; exact A|]. intros t2 f2 [E|H3]; [|eauto]. injection E as -> -> ->. right. exact (H2 _ A).
    - assert (N : forall t' f', ~ In (t', f', x) es).
      { intros t' f' C. apply D. apply in_map_iff. exists (t', f', x). auto. }
      destruct Hi as [Hi|Hi]; [|destruct (N _ _ Hi)]. injection Hi as -> -> ->. exists t, f. split; [left; reflexivity|].
      intros t2 f2 [E|H3]; [injection E as -> ->; auto|destruct (N _ _ H3)]. }
  destruct (X _ (events_sorted _ _) H) as [t' [f' [A B]]]. exists t', f'. split; [now apply events_binds|].
  intros t2 f2 H2. apply events_binds in H2. eauto.
Qed.

(** ** Reading a reference *)
Lemma eval_reference sc pos x t fuel ord : variable_node sc pos x = Some (Ok (NRef t)) -> assoc t (variables sc) = None ->
  is_order ord -> 1 < fuel -> ast_eval fuel ord sc pos (NRef x) = Ok (NRef t).
Proof.
  intros Hv Ht Ho Hf. destruct fuel as [|[|fuel]]; [lia|lia|].
  unfold ast_eval. cbn [eval_loop].
  assert (K : has_key x (variables sc) = true). { apply has_key_assoc. unfold variable_node in Hv. destruct (assoc x (variables sc)); [discriminate|discriminate]. }
  assert (R : extract_references sc (NRef x) = {| ref_functions := []; ref_variables := [x] |}).
  { unfold extract_references. cbn. rewrite K. reflexivity. }
  rewrite R. cbn [refs_is_empty ref_functions ref_variables refs_eqb set_eqb no_references forallb str_in andb orb].
  pose proof (Permutation_length_1_inv (Permutation_sym (Ho 0 [x]))) as P0. cbn [Nat.mul Nat.add]. rewrite P0.
  pose proof (Permutation_nil (Permutation_sym (Ho 1 []))) as P1. rewrite P1.
  unfold eval_round. cbn [resolve_variables]. rewrite Hv. cbn [bind eval_variables replace_variable eval_functions]. rewrite str_eqb_refl. cbn [bind eval_loop].
  assert (R2 : extract_references sc (NRef t) = no_references).
  { unfold extract_references. cbn. unfold has_key. rewrite Ht. reflexivity. }
  cbn [eval_functions bind]. rewrite R2. reflexivity.
Qed.

(** ** The parsers produce maps: no key twice *)
Lemma parse_scope_unique o : forall fuel ts sc req sc' req', unique_keys sc -> parse_scope fuel o ts sc req = Ok (sc', req') -> unique_keys sc'.
Proof.
  induction fuel as [|fuel IH]; intros ts sc req sc' req' [Hf Hv] H; [discriminate|]. cbn [parse_scope] in H.
  destruct ts as [|[t s] ts]; [inversion H; subst; split; assumption|].
  destruct t; try discriminate.
  - bind2 H. destruct p as [name fn]. eapply IH; [|exact H]. split; [|assumption]. cbn [define_function functions]. apply assoc_insert_nodup. assumption.
  - bind2 H. eapply IH; [|exact H]. split; [assumption|]. cbn [define_variable variables]. apply assoc_insert_nodup. assumption.
  - eapply IH; [|exact H]. split; assumption.
Qed.
Lemma section_unique o s sc req : code_section_parse o s = Ok (sc, req) -> unique_keys sc.
Proof.
  unfold code_section_parse. destruct (AstLexer.ast_lex (o_unicode o) s) as [lx|u| |]; try discriminate; [|intro H; exfalso; revert H; apply unknown_error_not_ok]. intro H.
  apply locate_ok in H. eapply parse_scope_unique; [|exact H]. split; constructor.
Qed.
Lemma load_source_unique co t p : load_source co t = Ok p -> unique_keys (pr_scope p).
Proof.
  unfold load_source. intro H. destruct (SourceCode.code_section (SourceCode.source_code_new t)) as [sec|].
  - destruct (code_section_parse (co_oracle co) sec) as [[sc req]| | |] eqn:E; cbn [bind] in H; try discriminate.
    destruct (sheet_parse _ _); cbn [bind] in H; try discriminate. injection H as <-. cbn. eapply section_unique; eauto.
  - cbn [bind] in H. destruct (sheet_parse _ _); cbn [bind] in H; try discriminate. injection H as <-. split; constructor.
Qed.
Lemma key_values_unique o : forall kvs acc r, NoDup (map fst acc) -> parse_key_values o kvs acc = Ok r -> NoDup (map fst r).
Proof.
  induction kvs as [|kv kvs IH]; intros acc r Ha H; cbn [parse_key_values] in H; [congruence|].
  destruct (AstParser.split_once c_eq kv) as [[k v]|]; [|discriminate]. destruct (ast_parse o false v); try discriminate.
  eapply IH; [|exact H]. now apply assoc_insert_nodup.
Qed.
