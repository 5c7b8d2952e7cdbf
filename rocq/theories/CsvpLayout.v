(** Inserting comments, blank lines and line continuations does not change the table. *)
From Verif Require Import Base BaseProofs Csvp CsvpSpec CsvpProofs CsvpTotal.

Definition addresses (rs : list (list field)) : list (list address) := map (map f_address) rs.

Lemma addresses_by_shape cfg cfg' s s' rs rs' :
  csvp_parse cfg s = Ok rs -> csvp_parse cfg' s' = Ok rs' -> values rs = values rs' ->
  addresses rs = addresses rs'.
Proof.
  intros H H' Hv. pose proof (csvp_addresses _ _ _ H) as A. pose proof (csvp_addresses _ _ _ H') as A'.
  assert (Hlen : length rs = length rs').
  { apply (f_equal (@length _)) in Hv. unfold values in Hv. now rewrite !map_length in Hv. }
  apply nth_error_extl. intros r. unfold addresses, values in *.
  rewrite !nth_error_map_opt. apply (f_equal (fun l => nth_error l r)) in Hv. rewrite !nth_error_map_opt in Hv.
  destruct (nth_error rs r) as [fs|] eqn:E, (nth_error rs' r) as [fs'|] eqn:E'; cbn in *; try discriminate; [|auto].
  f_equal. injection Hv as Hv. apply nth_error_extl. intros c. rewrite !nth_error_map_opt.
  apply (f_equal (fun l => nth_error l c)) in Hv. rewrite !nth_error_map_opt in Hv.
  destruct (nth_error fs c) as [f|] eqn:F, (nth_error fs' c) as [f'|] eqn:F'; cbn in *; try discriminate; [|auto].
  f_equal. rewrite (proj2 (A r fs E) c f F), (proj2 (A' r fs' E') c f' F'). reflexivity.
Qed.

Lemma same_table cfg d d' :
  doc_ok (separator cfg) d = true -> doc_ok (separator cfg) d' = true -> doc_values d = doc_values d' ->
  exists rs rs', csvp_parse cfg (render (separator cfg) d) = Ok rs
    /\ csvp_parse cfg (render (separator cfg) d') = Ok rs'
    /\ values rs = doc_values d /\ values rs' = values rs /\ addresses rs' = addresses rs.
Proof.
  intros H H' Hv. destruct (csvp_document cfg d H) as [rs [P V]].
  destruct (csvp_document cfg d' H') as [rs' [P' V']].
  exists rs, rs'. split; [auto|]. split; [auto|]. split; [auto|]. split; [congruence|].
  eapply addresses_by_shape; eauto. congruence.
Qed.

(** ** comments *)
Lemma items_ok_insert sep final t a b : b <> [] ->
  forallb (fun c => negb (c =? c_nl)%N) t = true ->
  items_ok sep final (a ++ b) = true -> items_ok sep final (a ++ Comment t :: b) = true.
Proof.
  intros Hb Ht. induction a as [|i a IH]; cbn [app]; intros H.
  - destruct b as [|j b']; [congruence|]. cbn [items_ok]. cbn [item_ok]. rewrite Ht. exact H.
  - destruct (a ++ b) as [|x y] eqn:E; [exfalso; destruct a; [apply Hb; exact E|discriminate]|].
    destruct (a ++ Comment t :: b) as [|x' y'] eqn:E'; [destruct a; discriminate|].
    cbn [items_ok] in H |- *. apply andb_true_iff in H as [H1 H2]. rewrite H1. cbn [andb]. auto.
Qed.

Lemma render_items_cons sep i j b final :
  render_items sep (i :: j :: b) final = render_item sep i ++ [c_nl] ++ render_items sep (j :: b) final.
Proof. unfold render_items. cbn [map]. rewrite join_cons, <- !app_assoc. reflexivity. Qed.

Lemma insert_comment_ok sep n n' a b t final : b <> [] ->
  forallb (fun c => negb (c =? c_nl)%N) t = true ->
  doc_ok sep {| blank_lines := n; items := a ++ b; final_newline := final |} = true ->
  doc_ok sep {| blank_lines := n'; items := a ++ Comment t :: b; final_newline := final |} = true
  /\ doc_values {| blank_lines := n'; items := a ++ Comment t :: b; final_newline := final |}
     = doc_values {| blank_lines := n; items := a ++ b; final_newline := final |}.
Proof.
  intros Hb Ht H. unfold doc_ok in *. cbn [items final_newline] in *.
  rewrite !andb_true_iff in H. destruct H as [[Hs Hok] Hn]. split.
  - rewrite Hs, items_ok_insert by auto. cbn [andb].
    destruct a as [|i a].
    + cbn [app]. destruct b as [|j b']; [congruence|]. rewrite render_items_cons. reflexivity.
    + cbn [app] in *. destruct (a ++ b) as [|x y] eqn:E; [exfalso; destruct a; [apply Hb; exact E|discriminate]|].
      destruct (a ++ Comment t :: b) as [|x' y'] eqn:E'; [destruct a; discriminate|].
      rewrite render_items_cons in Hn |- *. destruct (render_item sep i); [exact Hn|exact Hn].
  - unfold doc_values. cbn [items]. rewrite !flat_map_app. reflexivity.
Qed.

Lemma comments_invisible cfg n n' a b t final : b <> [] ->
  forallb (fun c => negb (c =? c_nl)%N) t = true ->
  doc_ok (separator cfg) {| blank_lines := n; items := a ++ b; final_newline := final |} = true ->
  exists rs rs',
    csvp_parse cfg (render (separator cfg)
      {| blank_lines := n; items := a ++ b; final_newline := final |}) = Ok rs
    /\ csvp_parse cfg (render (separator cfg)
      {| blank_lines := n'; items := a ++ Comment t :: b; final_newline := final |}) = Ok rs'
    /\ values rs' = values rs /\ addresses rs' = addresses rs.
Proof.
  intros Hb Ht H. destruct (insert_comment_ok _ n n' a b t final Hb Ht H) as [H' Hv].
  destruct (same_table cfg _ _ H H' (eq_sym Hv)) as [rs [rs' [P1 [P2 [_ [P3 P4]]]]]].
  exists rs, rs'. auto.
Qed.

(** ** line continuations *)
Lemma concat_split (ps1 ps2 : list str) p q :
  concat (ps1 ++ [p; q] ++ ps2) = concat (ps1 ++ [p ++ q] ++ ps2).
Proof. rewrite !concat_app. cbn. now rewrite !app_nil_r, <- !app_assoc. Qed.

Lemma bare_ok_split sep ps1 ps2 p q :
  bare_ok sep (ps1 ++ [p ++ q] ++ ps2) = true -> bare_ok sep (ps1 ++ [p; q] ++ ps2) = true.
Proof.
  unfold bare_ok. rewrite concat_split, !andb_true_iff. intros [[H1 H2] H3].
  split; [split|auto].
  - destruct ps1; reflexivity.
  - rewrite !forallb_app in *. cbn [forallb] in *. rewrite !andb_true_r in *. rewrite forallb_app in H2.
    rewrite !andb_true_iff in *. tauto.
Qed.

Lemma last_app_cons {A} (l : list A) x r d : last (l ++ x :: r) d = last (x :: r) d.
Proof.
  induction l as [|y l IH]; [reflexivity|]. cbn [app]. rewrite <- IH.
  destruct (l ++ x :: r) eqn:E; [destruct l; discriminate|reflexivity].
Qed.

Lemma ends_with_app c p q : q <> [] -> ends_with c (p ++ q) = ends_with c q.
Proof.
  intros H. unfold ends_with. rewrite rev_app_distr.
  destruct (rev q) as [|x r] eqn:E; [|reflexivity].
  exfalso. apply H. rewrite <- (rev_involutive q), E. reflexivity.
Qed.

Definition split_of (ps1 ps2 : list str) (p q : str) (c c' : cell_src) : Prop :=
  c = Bare (ps1 ++ [p ++ q] ++ ps2) /\ c' = Bare (ps1 ++ [p; q] ++ ps2).

Lemma split_inner sep ps1 ps2 p q c c' : split_of ps1 ps2 p q c c' ->
  inner_cell_ok sep c = true -> inner_cell_ok sep c' = true.
Proof. intros [-> ->]. cbn [inner_cell_ok]. apply bare_ok_split. Qed.
Lemma split_line_end sep ps1 ps2 p q c c' : split_of ps1 ps2 p q c c' ->
  line_end_cell_ok sep c = true -> line_end_cell_ok sep c' = true.
Proof.
  intros [-> ->]. cbn [line_end_cell_ok]. rewrite !andb_true_iff, !negb_true_iff.
  intros [H1 H2]. split; [now apply bare_ok_split|].
  cbn [app] in *. rewrite last_app_cons in *. destruct ps2 as [|x ps2]; [|exact H2].
  cbn [last] in *. destruct q as [|y q]; [reflexivity|]. rewrite ends_with_app in H2 by discriminate. auto.
Qed.
Lemma split_eof sep ps1 ps2 p q c c' : split_of ps1 ps2 p q c c' ->
  eof_cell_ok sep c = true -> eof_cell_ok sep c' = true.
Proof.
  intros [-> ->]. cbn [eof_cell_ok]. rewrite !andb_true_iff, concat_split.
  intros [H1 H2]. split; [now apply bare_ok_split|auto].
Qed.

Lemma cells_ok_replace sep last_ok c c' cs1 cs2 :
  (inner_cell_ok sep c = true -> inner_cell_ok sep c' = true) ->
  (last_ok c = true -> last_ok c' = true) ->
  cells_ok sep last_ok (cs1 ++ c :: cs2) = true -> cells_ok sep last_ok (cs1 ++ c' :: cs2) = true.
Proof.
  intros H1 H2. induction cs1 as [|x cs1 IH]; cbn [app].
  - destruct cs2 as [|y cs2]; cbn [cells_ok]; [exact H2|].
    rewrite !andb_true_iff. tauto.
  - intros H. destruct (cs1 ++ c :: cs2) as [|a b] eqn:E; [destruct cs1; discriminate|].
    destruct (cs1 ++ c' :: cs2) as [|a' b'] eqn:E'; [destruct cs1; discriminate|].
    cbn [cells_ok] in H |- *. apply andb_true_iff in H as [Ha Hb]. rewrite Ha. cbn [andb]. auto.
Qed.

Definition head_is (f : char -> bool) (s : str) : bool := match s with c :: _ => f c | [] => true end.
Lemma head_is_app_ne f a b : a <> [] -> head_is f (a ++ b) = head_is f a.
Proof. destruct a; [congruence|reflexivity]. Qed.

(** the head of a text after splitting a bare cell is unchanged or a backslash *)
Lemma split_render_head f ps1 ps2 p q : f c_backslash = true ->
  head_is f (join continuation (ps1 ++ [p ++ q] ++ ps2)) = true ->
  forall t, head_is f (join continuation (ps1 ++ [p ++ q] ++ ps2) ++ t) = true ->
  head_is f (join continuation (ps1 ++ [p; q] ++ ps2) ++ t) = true.
Proof.
  intros Hf H0 t. destruct ps1 as [|x ps1].
  - cbn [app]. destruct p as [|y p].
    + intros _. cbn [join app]. exact Hf.
    + destruct ps2; cbn; auto.
  - cbn [app]. intros H. assert (E1 : exists r, ps1 ++ (p ++ q) :: ps2 = r /\ r <> []) by (eexists; split; [reflexivity|destruct ps1; discriminate]).
    assert (E2 : exists r, ps1 ++ p :: q :: ps2 = r /\ r <> []) by (eexists; split; [reflexivity|destruct ps1; discriminate]).
    destruct E1 as [r1 [E1 N1]], E2 as [r2 [E2 N2]]. cbn [app] in *. rewrite E1 in H. rewrite E2.
    destruct r1 as [|a1 b1]; [congruence|]. destruct r2 as [|a2 b2]; [congruence|].
    rewrite !join_cons in *. destruct x as [|c x]; [cbn; exact Hf|exact H].
Qed.

Lemma head_weaken f a b : head_is f (a ++ b) = true -> head_is f a = true.
Proof. destruct a; auto. Qed.

Lemma split_record_head f sep ps1 ps2 p q cs1 cs2 t : f c_backslash = true ->
  head_is f (render_item sep (Record_ (cs1 ++ Bare (ps1 ++ [p ++ q] ++ ps2) :: cs2)) ++ t) = true ->
  head_is f (render_item sep (Record_ (cs1 ++ Bare (ps1 ++ [p; q] ++ ps2) :: cs2)) ++ t) = true.
Proof.
  intros Hf. cbn [render_item]. rewrite !map_app. cbn [map].
  destruct cs1 as [|x cs1].
  - cbn [map app]. destruct cs2 as [|y cs2].
    + cbn [map join]. intros H. eapply split_render_head; eauto. now apply head_weaken in H.
    + cbn [map]. rewrite !join_cons, <- !app_assoc. intros H.
      eapply split_render_head; eauto. now apply head_weaken in H.
  - cbn [map app].
    destruct (map render_cell cs1 ++ render_cell (Bare (ps1 ++ [p ++ q] ++ ps2)) :: map render_cell cs2)
      as [|a1 b1] eqn:E1; [destruct cs1; discriminate|].
    destruct (map render_cell cs1 ++ render_cell (Bare (ps1 ++ [p; q] ++ ps2)) :: map render_cell cs2)
      as [|a2 b2] eqn:E2; [destruct cs1; discriminate|].
    cbn [app] in E1, E2. cbn [app]. rewrite ?E1, ?E2, !join_cons, <- !app_assoc.
    destruct (render_cell x); auto.
Qed.

Lemma items_ok_replace sep final i i' a b :
  (forall lok, (lok = line_end_cell_ok sep \/ lok = eof_cell_ok sep) ->
     item_ok sep lok i = true -> item_ok sep lok i' = true) ->
  items_ok sep final (a ++ i :: b) = true -> items_ok sep final (a ++ i' :: b) = true.
Proof.
  intros Hi. induction a as [|j a IH]; cbn [app].
  - destruct b as [|y b]; cbn [items_ok].
    + apply Hi. destruct final; auto.
    + rewrite !andb_true_iff. intros [H1 H2]. split; [apply Hi; auto|auto].
  - intros H. destruct (a ++ i :: b) as [|x1 y1] eqn:E; [destruct a; discriminate|].
    destruct (a ++ i' :: b) as [|x2 y2] eqn:E'; [destruct a; discriminate|].
    cbn [items_ok] in H |- *. apply andb_true_iff in H as [H1 H2]. rewrite H1. cbn [andb]. auto.
Qed.

Lemma split_doc_ok sep n a b cs1 cs2 ps1 ps2 p q final :
  let d c := {| blank_lines := n; items := a ++ Record_ (cs1 ++ Bare c :: cs2) :: b;
                final_newline := final |} in
  doc_ok sep (d (ps1 ++ [p ++ q] ++ ps2)) = true ->
  doc_ok sep (d (ps1 ++ [p; q] ++ ps2)) = true
  /\ doc_values (d (ps1 ++ [p; q] ++ ps2)) = doc_values (d (ps1 ++ [p ++ q] ++ ps2)).
Proof.
  intros d H. unfold d, doc_ok in *. cbn [items final_newline] in *.
  rewrite !andb_true_iff in H. destruct H as [[Hs Hok] Hn].
  assert (Hsp : split_of ps1 ps2 p q (Bare (ps1 ++ [p ++ q] ++ ps2)) (Bare (ps1 ++ [p; q] ++ ps2))) by (split; auto).
  split.
  - rewrite Hs. cbn [andb]. apply andb_true_iff. split.
    + eapply items_ok_replace; [|exact Hok]. intros lok Hlok. cbn [item_ok].
      rewrite !andb_true_iff. intros [H1 H2]. split.
      * eapply cells_ok_replace; [| |exact H1].
        -- eapply split_inner; eauto.
        -- destruct Hlok as [->| ->]; [eapply split_line_end|eapply split_eof]; eauto.
      * change (head_is (fun c => negb (c =? c_hash)%N)
                  (render_item sep (Record_ (cs1 ++ Bare (ps1 ++ [p; q] ++ ps2) :: cs2))) = true).
        change (head_is (fun c => negb (c =? c_hash)%N)
                  (render_item sep (Record_ (cs1 ++ Bare (ps1 ++ [p ++ q] ++ ps2) :: cs2))) = true) in H2.
        pose proof (split_record_head (fun c => negb (c =? c_hash)%N) sep ps1 ps2 p q cs1 cs2 [] eq_refl) as P.
        rewrite !app_nil_r in P. auto.
    + change (head_is (fun c => negb (c =? c_nl)%N)
                (render_items sep (a ++ Record_ (cs1 ++ Bare (ps1 ++ [p; q] ++ ps2) :: cs2) :: b) final) = true).
      change (head_is (fun c => negb (c =? c_nl)%N)
                (render_items sep (a ++ Record_ (cs1 ++ Bare (ps1 ++ [p ++ q] ++ ps2) :: cs2) :: b) final) = true) in Hn.
      pose proof (fun t => split_record_head (fun c => negb (c =? c_nl)%N) sep ps1 ps2 p q cs1 cs2 t eq_refl) as P.
      destruct a as [|i a].
      * cbn [app] in *. destruct b as [|j b'].
        -- unfold render_items in *. cbn [map join] in *. apply P. exact Hn.
        -- rewrite render_items_cons in *. apply P. exact Hn.
      * cbn [app] in *.
        destruct (a ++ Record_ (cs1 ++ Bare (ps1 ++ (p ++ q) :: ps2) :: cs2) :: b) as [|x1 y1] eqn:E1;
          [destruct a; discriminate|].
        destruct (a ++ Record_ (cs1 ++ Bare (ps1 ++ p :: q :: ps2) :: cs2) :: b) as [|x2 y2] eqn:E2;
          [destruct a; discriminate|].
        rewrite render_items_cons in *. destruct (render_item sep i); exact Hn.
  - unfold doc_values. cbn [items]. rewrite !flat_map_app. cbn [flat_map item_values].
    rewrite !map_app. cbn [map cell_value]. now rewrite concat_split.
Qed.

Lemma continuation_invisible cfg n a b cs1 cs2 ps1 ps2 p q final :
  let d c := {| blank_lines := n; items := a ++ Record_ (cs1 ++ Bare c :: cs2) :: b;
                final_newline := final |} in
  doc_ok (separator cfg) (d (ps1 ++ [p ++ q] ++ ps2)) = true ->
  exists rs rs',
    csvp_parse cfg (render (separator cfg) (d (ps1 ++ [p ++ q] ++ ps2))) = Ok rs
    /\ csvp_parse cfg (render (separator cfg) (d (ps1 ++ [p; q] ++ ps2))) = Ok rs'
    /\ values rs' = values rs /\ addresses rs' = addresses rs.
Proof.
  intros d H. destruct (split_doc_ok _ n a b cs1 cs2 ps1 ps2 p q final H) as [H' Hv].
  destruct (same_table cfg _ _ H H' (eq_sym Hv)) as [rs [rs' [P1 [P2 [_ [P3 P4]]]]]].
  exists rs, rs'. auto.
Qed.

(** ** Quoted cells at the end of a line: RFC 4180 allows them, csvp does not *)
Lemma quoted_to_rest cfg text : forall fb k t, kv k ->
  match t with c :: _ => c <> c_dquote | [] => True end ->
  exists fb' k', kv k' /\ fb_ext fb text fb' /\
    parse_quoted cfg fb false k (double_quotes text ++ c_dquote :: t)
    = parse_rest_of_quoted cfg fb' k' t.
Proof.
  induction text as [|c text IH]; intros fb k t Hk Ht.
  - exists fb, (advance c_dquote k). split; [now apply kv_advance|]. split; [apply fb_ext_refl|].
    cbn [double_quotes app parse_quoted]. rewrite N.eqb_refl.
    destruct t as [|q r]; [reflexivity|]. apply N.eqb_neq in Ht. now rewrite Ht.
  - cbn [double_quotes]. destruct (N.eqb_spec c c_dquote) as [->|Hc].
    + cbn [app parse_quoted]. rewrite !N.eqb_refl.
      assert (Hk1 := kv_advance c_dquote k Hk).
      destruct (push_ok cfg fb c_dquote c_dquote _ Hk1) as [fb1 [-> He1]]. cbn [bind].
      destruct (IH fb1 _ t (kv_advance c_dquote _ Hk1) Ht) as [fb2 [k2 [Hk2 [He2 Heq]]]].
      exists fb2, k2. split; [auto|]. split; [exact (fb_ext_trans _ _ _ _ _ He1 He2)|exact Heq].
    + cbn [app parse_quoted]. apply N.eqb_neq in Hc. rewrite Hc.
      destruct (push_ok cfg fb c c k Hk) as [fb1 [-> He1]]. cbn [bind].
      destruct (IH fb1 _ t (kv_advance c _ Hk) Ht) as [fb2 [k2 [Hk2 [He2 Heq]]]].
      exists fb2, k2. split; [auto|]. split; [exact (fb_ext_trans _ _ _ _ _ He1 He2)|exact Heq].
Qed.

Lemma quoted_then_line_is_error cfg text c r :
  sep_ok (separator cfg) = true -> is_ws c = false -> c <> separator cfg ->
  exists e, csvp_parse cfg ([c_dquote] ++ double_quotes text ++ [c_dquote] ++ [c_nl] ++ c :: r) = Err e.
Proof.
  intros Hs Hw Hc. destruct (sep_ok_inv _ Hs) as [_ [Hsq _]].
  unfold csvp_parse. cbn [app skip_newlines]. change (c_dquote =? c_nl)%N with false. cbv iota.
  cbn [parse_records]. unfold parse_record. change (c_dquote =? c_hash)%N with false. cbv iota.
  cbn [parse_fields]. rewrite field_quote_start by auto.
  assert (Hk : kv (advance c_dquote cursor_init)) by (unfold kv; cbn; lia).
  destruct (quoted_to_rest cfg text (fb_new {| addr_x := 0; addr_y := 0 |}) _ (c_nl :: c :: r) Hk
              ltac:(discriminate)) as [fb' [k' [Hk' [_ ->]]]].
  cbn [parse_rest_of_quoted]. change (is_ws c_nl) with true. cbv iota. rewrite Hw.
  apply N.eqb_neq in Hc. rewrite Hc. unfold parse_error.
  destruct (pos_advance cfg c (advance c_nl k') (kv_advance _ _ Hk')) as [p ->].
  cbn [bind]. eauto.
Qed.

Lemma quoted_cell_record : forall (cfg : config) (lead text trail : str) (next : list cell_src),
  sep_ok (separator cfg) = true ->
  blank_in_line lead = true -> blank trail = true ->
  (next <> [] -> cells_ok (separator cfg) (eof_cell_ok (separator cfg)) next = true) ->
  exists rs, csvp_parse cfg
      (render_item (separator cfg) (Record_ (Quoted lead text trail :: next))) = Ok rs
    /\ values rs = [trim text :: map cell_value next].
Proof.
  intros cfg lead text trail next Hs Hl Ht Hn.
  assert (Hd : doc_ok (separator cfg)
     {| blank_lines := 0; items := [Record_ (Quoted lead text trail :: next)]; final_newline := false |} = true).
  { unfold doc_ok. cbn [items final_newline items_ok item_ok]. rewrite Hs. cbn [andb].
    assert (Hh : forall f, f c_dquote = true -> forallb (fun c => is_ws c && negb (c =? c_nl)%N) lead = true ->
       (forall c, is_ws c && negb (c =? c_nl)%N = true -> f c = true) -> forall t,
       match lead ++ c_dquote :: t with c :: _ => f c | [] => true end = true).
    { intros f Hf Hlead Hall t. destruct lead as [|c l]; [exact Hf|]. cbn in *.
      apply andb_true_iff in Hlead as [Hc _]. auto. }
    assert (Er : exists t, render_item (separator cfg) (Record_ (Quoted lead text trail :: next))
                 = lead ++ c_dquote :: t).
    { cbn [render_item map]. destruct next as [|d n].
      - eexists. cbn. reflexivity.
      - eexists. rewrite map_cons, join_cons. cbn [render_cell]. rewrite <- !app_assoc. cbn. reflexivity. }
    destruct Er as [t Er]. rewrite !andb_true_iff. split; [split|].
    - destruct next as [|d n]; cbn [cells_ok eof_cell_ok inner_cell_ok]; rewrite Hl, Ht; cbn [andb]; [reflexivity|].
      apply Hn. discriminate.
    - unfold not_comment. rewrite Er. apply Hh; [reflexivity|exact Hl|].
      intros c Hc. apply andb_true_iff in Hc as [Hc _]. destruct (N.eqb_spec c c_hash) as [->|]; [discriminate|reflexivity].
    - unfold render_items. cbn [map join]. rewrite app_nil_r, Er. apply Hh; [reflexivity|exact Hl|].
      intros c Hc. now apply andb_true_iff in Hc as [_ Hc]. }
  destruct (csvp_document cfg _ Hd) as [rs [H1 H2]]. exists rs.
  unfold render, render_items in H1. cbn [blank_lines items final_newline repeat map join app] in H1.
  rewrite app_nil_r in H1. split; [exact H1|exact H2].
Qed.
