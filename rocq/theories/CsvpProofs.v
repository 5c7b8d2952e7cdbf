From Verif Require Import Base BaseProofs Csvp CsvpSpec.

(** ** Cursor validity: positions can be taken after any consumed char *)
Definition kv (k : cursor) : Prop := (-1 <= cur_off k)%Z.


Lemma kv_advance c k : kv k -> kv (advance c k).
Proof. unfold kv, advance. destruct (is_record_terminator c); cbn; lia. Qed.

Lemma pos_advance cfg c k : kv k -> exists p, cursor_position cfg (advance c k) = Some p.
Proof.
  unfold kv, advance, cursor_position. intros H.
  destruct (is_record_terminator c); cbn [cur_off].
  - cbn. eauto.
  - destruct (Z.ltb_spec (cur_off k + 1) 0) as [Hlt|Hge]; [lia|eauto].
Qed.

Definition fb_ext (fb : field_builder) (v : str) (fb' : field_builder) : Prop :=
  fb_address fb' = fb_address fb /\ fb_value fb' = fb_value fb ++ v.

Lemma fb_ext_refl fb : fb_ext fb [] fb.
Proof. split; [auto|now rewrite app_nil_r]. Qed.
Lemma fb_ext_trans fb v fb' v' fb'' :
  fb_ext fb v fb' -> fb_ext fb' v' fb'' -> fb_ext fb (v ++ v') fb''.
Proof. intros [H1 H2] [H3 H4]. split; [congruence|]. now rewrite H4, H2, app_assoc. Qed.

Lemma push_ok cfg fb c c' k : kv k ->
  exists fb', fb_push cfg fb c (advance c' k) = Ok fb' /\ fb_ext fb [c] fb'.
Proof.
  intros H. destruct (pos_advance cfg c' k H) as [p Hp]. unfold fb_push. rewrite Hp.
  eexists; split; [reflexivity|]. split; reflexivity.
Qed.

(** ** Separator facts *)
Lemma sep_ok_inv sep : sep_ok sep = true ->
  is_ws sep = false /\ sep <> c_dquote /\ sep <> c_backslash /\ sep <> c_hash /\ sep <> c_nl.
Proof.
  unfold sep_ok. rewrite !andb_true_iff, !negb_true_iff, !N.eqb_neq.
  intros [[[H1 H2] H3] H4]. repeat split; auto. intros ->. now cbn in H1.
Qed.

(** ** How a field ends: what follows it in the text *)
Definition field_end (cfg : config) (v : str) (a : address) (rest : str)
  (out : step field_result) : Prop :=
  exists ps k', kv k' /\
    match rest with
    | [] => out = Ok (FLast {| f_address := a; f_value := v; f_positions := ps |}, k', [])
    | c :: r =>
        (c = separator cfg
         /\ out = Ok (FSome {| f_address := a; f_value := v; f_positions := ps |}, k', r))
        \/ (c = c_nl /\ c <> separator cfg
            /\ out = Ok (FLast {| f_address := a; f_value := v; f_positions := ps |}, k', r))
    end.

Definition ends_field (cfg : config) (rest : str) : Prop :=
  match rest with [] => True | c :: _ => c = separator cfg \/ c = c_nl end.

Definition body_char (sep : char) (c : char) : bool := negb (c =? sep)%N && negb (c =? c_nl)%N.

Lemma body_char_inv sep c : body_char sep c = true -> c <> sep /\ c <> c_nl.
Proof. unfold body_char. rewrite andb_true_iff, !negb_true_iff, !N.eqb_neq. tauto. Qed.

Definition starts_nl (s : str) : Prop := match s with c :: _ => c = c_nl | [] => False end.

(** one step of the unquoted loop over a normal char *)
Lemma unquoted_char cfg fb k c t :
  kv k -> c <> separator cfg -> c <> c_nl -> (c <> c_backslash \/ ~ starts_nl t) ->
  exists fb' k', kv k' /\ fb_ext fb [c] fb' /\
    parse_unquoted cfg fb k (c :: t) = parse_unquoted cfg fb' k' t.
Proof.
  intros Hk Hs Hn Hb. destruct (push_ok cfg fb c c k Hk) as [fb' [Hp He]].
  exists fb', (advance c k). split; [now apply kv_advance|]. split; [exact He|].
  cbn [parse_unquoted]. rewrite Hp. cbn [bind].
  apply N.eqb_neq in Hs. apply N.eqb_neq in Hn. unfold is_record_terminator. rewrite Hs, Hn.
  destruct (N.eqb_spec c c_backslash) as [->|Hbs]; [|reflexivity].
  destruct t as [|n r]; [reflexivity|].
  destruct (N.eqb_spec n c_nl) as [->|]; [|reflexivity].
  exfalso. destruct Hb as [Hb|Hb]; [congruence|]. apply Hb. reflexivity.
Qed.

Lemma ends_with_cons c x p : p <> [] -> ends_with c (x :: p) = ends_with c p.
Proof.
  intros H. unfold ends_with. cbn [rev].
  destruct (rev p) as [|y r] eqn:E; [|reflexivity].
  exfalso. apply H. rewrite <- (rev_involutive p), E. reflexivity.
Qed.

Lemma unquoted_piece cfg p : forall fb k t,
  kv k -> forallb (body_char (separator cfg)) p = true ->
  (ends_with c_backslash p = false \/ ~ starts_nl t) ->
  exists fb' k', kv k' /\ fb_ext fb p fb' /\
    parse_unquoted cfg fb k (p ++ t) = parse_unquoted cfg fb' k' t.
Proof.
  induction p as [|c p IH]; intros fb k t Hk Hp He.
  - exists fb, k. split; [auto|]. split; [apply fb_ext_refl|reflexivity].
  - cbn [forallb] in Hp. apply andb_true_iff in Hp as [Hc Hp]. apply body_char_inv in Hc as [Hs Hn].
    assert (Hb : c <> c_backslash \/ ~ starts_nl (p ++ t)).
    { destruct p as [|y p'].
      - destruct He as [He|He]; [|right; exact He].
        left. unfold ends_with in He. cbn in He. now apply N.eqb_neq in He.
      - right. cbn. cbn [forallb] in Hp. apply andb_true_iff in Hp as [Hy _].
        apply body_char_inv in Hy. tauto. }
    destruct (unquoted_char cfg fb k c (p ++ t) Hk Hs Hn Hb) as [fb1 [k1 [Hk1 [He1 Heq1]]]].
    assert (He' : ends_with c_backslash p = false \/ ~ starts_nl t).
    { destruct He as [He|He]; [|auto]. destruct p as [|y p']; [left; reflexivity|].
      rewrite ends_with_cons in He by discriminate. auto. }
    destruct (IH fb1 k1 t Hk1 Hp He') as [fb2 [k2 [Hk2 [He2 Heq2]]]].
    exists fb2, k2. split; [auto|]. split.
    + exact (fb_ext_trans _ _ _ _ _ He1 He2).
    + cbn [app]. congruence.
Qed.

Lemma unquoted_cont cfg fb k t :
  parse_unquoted cfg fb k (continuation ++ t)
  = parse_unquoted cfg fb (advance c_nl (advance c_backslash k)) t.
Proof. reflexivity. Qed.

Lemma unquoted_end cfg fb k rest :
  kv k -> separator cfg <> c_backslash -> ends_field cfg rest ->
  field_end cfg (trim (fb_value fb)) (fb_address fb) rest (parse_unquoted cfg fb k rest).
Proof.
  intros Hk Hsb He. unfold field_end, fb_build.
  destruct rest as [|c r].
  - exists (fb_positions fb), k. split; [auto|reflexivity].
  - exists (fb_positions fb), (advance c k). split; [now apply kv_advance|].
    cbn [parse_unquoted]. cbn in He.
    assert (Hcb : (c =? c_backslash)%N = false).
    { apply N.eqb_neq. destruct He as [->| ->]; [auto|discriminate]. }
    rewrite Hcb.
    destruct (N.eqb_spec c (separator cfg)) as [->|Hne]; [left; split; reflexivity|].
    right. destruct He as [?|Hnl]; [congruence|]. subst c. auto.
Qed.

Lemma pieces_cons p q ps :
  join continuation (p :: q :: ps) = p ++ continuation ++ join continuation (q :: ps).
Proof. reflexivity. Qed.

Lemma unquoted_pieces cfg ps : forall fb k rest,
  kv k -> separator cfg <> c_backslash -> ps <> [] ->
  forallb (forallb (body_char (separator cfg))) ps = true ->
  ends_field cfg rest ->
  (ends_with c_backslash (last ps []) = false \/ ~ starts_nl rest) ->
  field_end cfg (trim (fb_value fb ++ concat ps)) (fb_address fb) rest
    (parse_unquoted cfg fb k (join continuation ps ++ rest)).
Proof.
  induction ps as [|p ps IH]; intros fb k rest Hk Hsb Hne Hps Hend Hb; [congruence|].
  cbn [forallb] in Hps. apply andb_true_iff in Hps as [Hp Hps].
  destruct ps as [|q ps'].
  - cbn [join concat last] in *. rewrite app_nil_r.
    destruct (unquoted_piece cfg p fb k rest Hk Hp Hb) as [fb' [k' [Hk' [[Ha Hv] ->]]]].
    rewrite <- Hv, <- Ha. now apply unquoted_end.
  - rewrite pieces_cons, <- !app_assoc.
    assert (Hbp : ends_with c_backslash p = false
                  \/ ~ starts_nl (continuation ++ join continuation (q :: ps') ++ rest)).
    { right. cbn. discriminate. }
    destruct (unquoted_piece cfg p fb k _ Hk Hp Hbp) as [fb' [k' [Hk' [[Ha Hv] ->]]]].
    rewrite unquoted_cont.
    assert (Hk2 : kv (advance c_nl (advance c_backslash k'))) by now do 2 apply kv_advance.
    specialize (IH fb' _ rest Hk2 Hsb ltac:(discriminate) Hps Hend Hb).
    rewrite Hv, Ha, <- app_assoc in IH. exact IH.
Qed.

(** ** Bare cells *)
(** Result when the cell is blank: nothing was pushed. *)
Definition blank_end (cfg : config) (a : address) (rest : str) (out : step field_result) : Prop :=
  exists k', kv k' /\
    match rest with
    | [] => out = Ok (FEof, k', [])
    | c :: r =>
        (c = separator cfg
         /\ out = Ok (FSome {| f_address := a; f_value := []; f_positions := [] |}, k', r))
        \/ (c = c_nl /\ c <> separator cfg
            /\ out = Ok (FLast {| f_address := a; f_value := []; f_positions := [] |}, k', r))
    end.

Definition bare_end (cfg : config) (a : address) (text rest : str) (out : step field_result) :=
  if blank text then blank_end cfg a rest out
  else field_end cfg (trim text) a rest out.

Lemma field_ws cfg fb k c t : c <> c_nl -> is_ws c = true ->
  parse_field cfg fb k (c :: t) = parse_field cfg fb (advance c k) t.
Proof.
  intros Hn Hw. cbn [parse_field]. unfold is_record_terminator.
  apply N.eqb_neq in Hn. now rewrite Hn, Hw.
Qed.

Lemma field_cont cfg fb k t : separator cfg <> c_backslash ->
  parse_field cfg fb k (continuation ++ t)
  = parse_field cfg fb (advance c_nl (advance c_backslash k)) t.
Proof.
  intros H. cbn [app continuation parse_field].
  assert (Hs : (c_backslash =? separator cfg)%N = false) by (apply N.eqb_neq; congruence).
  rewrite Hs. reflexivity.
Qed.

Lemma field_bare_start cfg fb k c t :
  kv k -> is_ws c = false -> c <> separator cfg -> c <> c_nl -> c <> c_dquote ->
  (c <> c_backslash \/ ~ starts_nl t) ->
  exists fb' k', kv k' /\ fb_ext fb [c] fb' /\
    parse_field cfg fb k (c :: t) = parse_unquoted cfg fb' k' t.
Proof.
  intros Hk Hw Hs Hn Hq Hb. destruct (push_ok cfg fb c c k Hk) as [fb' [Hp He]].
  exists fb', (advance c k). split; [now apply kv_advance|]. split; [exact He|].
  cbn [parse_field]. rewrite Hp, Hw, andb_false_r. cbn [bind].
  unfold is_record_terminator.
  apply N.eqb_neq in Hs. apply N.eqb_neq in Hn. apply N.eqb_neq in Hq. rewrite Hs, Hn, Hq.
  destruct (N.eqb_spec c c_backslash) as [->|Hbs]; [|reflexivity].
  destruct t as [|n r]; [reflexivity|].
  destruct (N.eqb_spec n c_nl) as [->|]; [|reflexivity].
  exfalso. destruct Hb as [Hb|Hb]; [congruence|]. apply Hb. reflexivity.
Qed.

Lemma ws_not_nl_sep sep c : is_ws sep = false -> is_ws c = true -> c <> sep.
Proof. congruence. Qed.

Lemma trim_app_ws_l a b : forallb is_ws a = true -> trim (a ++ b) = trim b.
Proof. intros H. unfold trim. now rewrite trim_start_app_ws. Qed.

Lemma blank_app a b : blank (a ++ b) = blank a && blank b.
Proof. apply forallb_app. Qed.

Lemma bare_field cfg ps : forall fb k rest,
  kv k -> sep_ok (separator cfg) = true -> fb_value fb = [] -> fb_positions fb = [] ->
  ps <> [] -> forallb (forallb (body_char (separator cfg))) ps = true ->
  first_visible_is (fun c => (c =? c_dquote)%N) (concat ps) = false ->
  ends_field cfg rest ->
  (ends_with c_backslash (last ps []) = false \/ ~ starts_nl rest) ->
  bare_end cfg (fb_address fb) (concat ps) rest
    (parse_field cfg fb k (join continuation ps ++ rest)).
Proof.
  intros fb k rest Hk Hsep. destruct (sep_ok_inv _ Hsep) as [Hsw [Hsq [Hsb [Hsh Hsn]]]].
  revert fb k rest Hk.
  induction ps as [|p ps IHps]; intros fb k rest Hk Hv Hpos Hne Hps Hq Hend Hb; [congruence|].
  revert fb k rest Hk Hv Hpos Hne Hps Hq Hend Hb.
  induction p as [|c p IHp]; intros fb k rest Hk Hv Hpos Hne Hps Hq Hend Hb.
  - destruct ps as [|q ps'].
    + (* only an empty piece left *)
      cbn [join app concat]. unfold bare_end. cbn [blank forallb app].
      unfold blank_end. destruct rest as [|c r].
      * exists k. split; [auto|reflexivity].
      * exists (advance c k). split; [now apply kv_advance|].
        cbn [parse_field]. cbn in Hend. unfold is_record_terminator.
        destruct (N.eqb_spec c c_nl) as [->|Hcn].
        -- cbn [negb andb]. assert (E : (c_nl =? separator cfg)%N = false) by (apply N.eqb_neq; congruence).
           rewrite E. right. split; [auto|]. split; [congruence|]. unfold fb_build. now rewrite Hv, Hpos.
        -- destruct Hend as [->|?]; [|congruence]. rewrite Hsw. cbn [negb andb].
           rewrite N.eqb_refl. left. split; [auto|]. unfold fb_build. now rewrite Hv, Hpos.
    + rewrite pieces_cons. cbn [app]. rewrite <- app_assoc, field_cont by auto.
      cbn [concat app]. cbn [forallb] in Hps.
      apply IHps; try assumption; discriminate.
  - cbn [forallb] in Hps. apply andb_true_iff in Hps as [Hcp Hps].
    apply andb_true_iff in Hcp as [Hc Hp]. destruct (body_char_inv _ _ Hc) as [Hcs Hcn].
    assert (Htail : exists t, join continuation ((c :: p) :: ps) ++ rest = c :: t
                              /\ t = join continuation (p :: ps) ++ rest).
    { eexists; split; [|reflexivity]. destruct ps; reflexivity. }
    destruct Htail as [t [-> ->]].
    destruct (is_ws c) eqn:Hw.
    + rewrite field_ws by auto. cbn [concat app].
      assert (Hbare : forall o, bare_end cfg (fb_address fb) (concat (p :: ps)) rest o ->
                                bare_end cfg (fb_address fb) (c :: concat (p :: ps)) rest o).
      { intros o. unfold bare_end. cbn [blank forallb]. rewrite Hw. cbn [andb].
        change (c :: concat (p :: ps)) with ([c] ++ concat (p :: ps)).
        rewrite trim_app_ws_l; [auto|]. cbn. now rewrite Hw. }
      apply (Hbare _). apply IHp; auto; try discriminate.
      * now apply kv_advance.
      * cbn [forallb]. now rewrite Hp, Hps.
      * unfold first_visible_is in Hq |- *. cbn [concat app trim_start] in Hq. rewrite Hw in Hq. exact Hq.
      * destruct Hb as [Hb|Hb]; [|auto]. destruct ps as [|q ps']; [|auto].
        cbn [last] in Hb |- *. destruct p as [|y p']; [left; reflexivity|].
        rewrite ends_with_cons in Hb by discriminate. auto.
    + assert (Hcq : c <> c_dquote).
      { unfold first_visible_is in Hq. cbn [concat app trim_start] in Hq. rewrite Hw in Hq.
        now apply N.eqb_neq. }
      assert (Hnl : c <> c_backslash \/ ~ starts_nl (join continuation (p :: ps) ++ rest)).
      { destruct p as [|y p'].
        - destruct ps as [|q ps'].
          + cbn [join app]. destruct Hb as [Hb|Hb]; [|auto]. left.
            cbn in Hb. now apply N.eqb_neq in Hb.
          + right. cbn. discriminate.
        - right. cbn [forallb] in Hp. apply andb_true_iff in Hp as [Hy _].
          apply body_char_inv in Hy. destruct ps; cbn; tauto. }
      destruct (field_bare_start cfg fb k c _ Hk Hw Hcs Hcn Hcq Hnl) as [fb' [k' [Hk' [[Ha Hv'] ->]]]].
      unfold bare_end. cbn [concat app blank forallb]. rewrite Hw. cbn [andb].
      rewrite <- Ha.
      assert (Htext : c :: p ++ concat ps = fb_value fb' ++ concat (p :: ps)).
      { rewrite Hv', Hv. reflexivity. }
      rewrite Htext. apply unquoted_pieces; auto; try discriminate.
      * cbn [forallb]. now rewrite Hp, Hps.
      * destruct Hb as [Hb|Hb]; [|auto]. destruct ps as [|q ps']; [|auto].
        cbn [last] in Hb |- *. destruct p as [|y p']; [left; reflexivity|].
        rewrite ends_with_cons in Hb by discriminate. auto.
Qed.

(** ** Quoted cells *)
Lemma rest_of_quoted cfg fb trail : forall k rest,
  kv k -> sep_ok (separator cfg) = true -> blank trail = true ->
  (rest = [] \/ exists r, rest = separator cfg :: r) ->
  field_end cfg (trim (fb_value fb)) (fb_address fb) rest
    (parse_rest_of_quoted cfg fb k (trail ++ rest)).
Proof.
  intros k rest Hk Hsep. destruct (sep_ok_inv _ Hsep) as [Hsw _]. revert k rest Hk.
  induction trail as [|c t IH]; intros k rest Hk Hb Hr.
  - cbn [app]. unfold field_end, fb_build. destruct Hr as [->|[r ->]].
    + exists (fb_positions fb), k. split; [auto|reflexivity].
    + exists (fb_positions fb), (advance (separator cfg) k). split; [now apply kv_advance|].
      left. split; [auto|]. cbn. now rewrite Hsw, N.eqb_refl.
  - cbn [blank forallb] in Hb. apply andb_true_iff in Hb as [Hc Hb].
    cbn [app parse_rest_of_quoted]. rewrite Hc. apply IH; auto. now apply kv_advance.
Qed.

Lemma quoted_field cfg text : forall fb k trail rest,
  kv k -> sep_ok (separator cfg) = true -> blank trail = true ->
  (rest = [] \/ exists r, rest = separator cfg :: r) ->
  field_end cfg (trim (fb_value fb ++ text)) (fb_address fb) rest
    (parse_quoted cfg fb false k (double_quotes text ++ [c_dquote] ++ trail ++ rest)).
Proof.
  intros fb k trail rest Hk Hsep Ht Hr. destruct (sep_ok_inv _ Hsep) as [Hsw [Hsq _]].
  revert fb k Hk. induction text as [|c text IH]; intros fb k Hk.
  - cbn [double_quotes app parse_quoted]. rewrite app_nil_r. change (c_dquote =? c_dquote)%N with true.
    cbv iota.
    assert (Hk1 := kv_advance c_dquote k Hk).
    pose proof (rest_of_quoted cfg fb trail (advance c_dquote k) rest Hk1 Hsep Ht Hr) as H.
    destruct (trail ++ rest) as [|q r] eqn:E; [exact H|].
    destruct (N.eqb_spec q c_dquote) as [->|_]; [|exact H].
    exfalso. destruct trail as [|x t'].
    + cbn in E. destruct Hr as [->|[r' ->]]; [discriminate|]. injection E as E _. auto.
    + cbn in E. injection E as -> _. cbn in Ht. discriminate.
  - cbn [double_quotes]. destruct (N.eqb_spec c c_dquote) as [->|Hc].
    + cbn [app parse_quoted]. change (c_dquote =? c_dquote)%N with true. cbv iota.
      assert (Hk1 := kv_advance c_dquote k Hk).
      destruct (push_ok cfg fb c_dquote c_dquote _ Hk1) as [fb' [-> [Ha Hv]]]. cbn [bind].
      specialize (IH fb' (advance c_dquote (advance c_dquote k)) (kv_advance _ _ Hk1)).
      rewrite Hv, Ha, <- app_assoc in IH. exact IH.
    + cbn [app parse_quoted]. apply N.eqb_neq in Hc. rewrite Hc.
      destruct (push_ok cfg fb c c k Hk) as [fb' [-> [Ha Hv]]]. cbn [bind].
      specialize (IH fb' (advance c k) (kv_advance _ _ Hk)).
      rewrite Hv, Ha, <- app_assoc in IH. exact IH.
Qed.

Lemma field_skip_lead cfg fb lead : forall k t, blank_in_line lead = true -> kv k ->
  exists k', kv k' /\ parse_field cfg fb k (lead ++ t) = parse_field cfg fb k' t.
Proof.
  induction lead as [|c l IH]; intros k t H Hk; [exists k; auto|].
  cbn [blank_in_line forallb] in H. apply andb_true_iff in H as [Hc Hl].
  apply andb_true_iff in Hc as [Hw Hn]. apply negb_true_iff, N.eqb_neq in Hn.
  cbn [app]. rewrite field_ws by auto. apply IH; [auto|now apply kv_advance].
Qed.

Lemma field_quote_start cfg fb k t : separator cfg <> c_dquote ->
  parse_field cfg fb k (c_dquote :: t) = parse_quoted cfg fb false (advance c_dquote k) t.
Proof.
  intros H. cbn [parse_field].
  assert (E : (c_dquote =? separator cfg)%N = false) by (apply N.eqb_neq; congruence).
  rewrite E. reflexivity.
Qed.

Lemma quoted_cell cfg fb k lead text trail rest :
  kv k -> sep_ok (separator cfg) = true -> fb_value fb = [] ->
  blank_in_line lead = true -> blank trail = true ->
  (rest = [] \/ exists r, rest = separator cfg :: r) ->
  field_end cfg (trim text) (fb_address fb) rest
    (parse_field cfg fb k (render_cell (Quoted lead text trail) ++ rest)).
Proof.
  intros Hk Hsep Hv Hl Ht Hr. destruct (sep_ok_inv _ Hsep) as [_ [Hsq _]].
  cbn [render_cell]. rewrite <- !app_assoc.
  destruct (field_skip_lead cfg fb lead k
              ([c_dquote] ++ double_quotes text ++ [c_dquote] ++ trail ++ rest) Hl Hk) as [k' [Hk' ->]].
  cbn [app]. rewrite field_quote_start by auto.
  pose proof (quoted_field cfg text fb (advance c_dquote k') trail rest
                (kv_advance _ _ Hk') Hsep Ht Hr) as H.
  rewrite Hv in H. exact H.
Qed.

(** ** Cells in their three contexts *)
Lemma bare_ok_inv sep ps : bare_ok sep ps = true ->
  ps <> [] /\ forallb (forallb (body_char sep)) ps = true
  /\ first_visible_is (fun c => (c =? c_dquote)%N) (concat ps) = false.
Proof.
  unfold bare_ok. rewrite !andb_true_iff, negb_true_iff. intros [[H1 H2] H3].
  split; [destruct ps; [discriminate|discriminate]|]. split; [exact H2|exact H3].
Qed.

Definition fnew (col row : nat) := fb_new {| addr_x := col; addr_y := row |}.

Lemma inner_cell cfg k col row c r :
  kv k -> sep_ok (separator cfg) = true -> inner_cell_ok (separator cfg) c = true ->
  exists ps k', kv k' /\
    parse_field cfg (fnew col row) k (render_cell c ++ separator cfg :: r)
    = Ok (FSome {| f_address := {| addr_x := col; addr_y := row |};
                   f_value := cell_value c; f_positions := ps |}, k', r).
Proof.
  intros Hk Hsep Hc. destruct (sep_ok_inv _ Hsep) as [_ [_ [_ [_ Hsn]]]].
  destruct c as [ps|lead text trail]; cbn [inner_cell_ok] in Hc.
  - destruct (bare_ok_inv _ _ Hc) as [H1 [H2 H3]].
    pose proof (bare_field cfg ps (fnew col row) k (separator cfg :: r) Hk Hsep eq_refl eq_refl H1 H2 H3
                  (or_introl eq_refl)
                  (or_intror (fun E : starts_nl (separator cfg :: r) => Hsn E))) as H.
    unfold bare_end in H. cbn [render_cell cell_value].
    destruct (blank (concat ps)) eqn:Eb.
    + destruct H as [k' [Hk' [[_ H]|[_ [Hne _]]]]]; [|congruence].
      exists [], k'. split; [auto|]. rewrite (trim_blank _ Eb). exact H.
    + destruct H as [pos [k' [Hk' [[_ H]|[_ [Hne _]]]]]]; [|congruence].
      exists pos, k'. auto.
  - apply andb_true_iff in Hc as [Hl Ht].
    destruct (quoted_cell cfg (fnew col row) k lead text trail (separator cfg :: r) Hk Hsep eq_refl Hl Ht
                (or_intror (ex_intro _ r eq_refl))) as [pos [k' [Hk' [[_ H]|[_ [Hne _]]]]]]; [|congruence].
    exists pos, k'. auto.
Qed.

Lemma line_end_cell cfg k col row c r :
  kv k -> sep_ok (separator cfg) = true -> line_end_cell_ok (separator cfg) c = true ->
  exists ps k', kv k' /\
    parse_field cfg (fnew col row) k (render_cell c ++ c_nl :: r)
    = Ok (FLast {| f_address := {| addr_x := col; addr_y := row |};
                   f_value := cell_value c; f_positions := ps |}, k', r).
Proof.
  intros Hk Hsep Hc. destruct (sep_ok_inv _ Hsep) as [_ [_ [_ [_ Hsn]]]].
  destruct c as [ps|lead text trail]; cbn [line_end_cell_ok] in Hc; [|discriminate].
  apply andb_true_iff in Hc as [Hc Hb]. apply negb_true_iff in Hb.
  destruct (bare_ok_inv _ _ Hc) as [H1 [H2 H3]].
  pose proof (bare_field cfg ps (fnew col row) k (c_nl :: r) Hk Hsep eq_refl eq_refl H1 H2 H3
                (or_intror eq_refl) (or_introl Hb)) as H.
  unfold bare_end in H. cbn [render_cell cell_value].
  destruct (blank (concat ps)) eqn:Eb.
  - destruct H as [k' [Hk' [[E _]|[_ [_ H]]]]]; [congruence|].
    exists [], k'. split; [auto|]. rewrite (trim_blank _ Eb). exact H.
  - destruct H as [pos [k' [Hk' [[E _]|[_ [_ H]]]]]]; [congruence|].
    exists pos, k'. auto.
Qed.

Lemma eof_cell cfg k col row c :
  kv k -> sep_ok (separator cfg) = true -> eof_cell_ok (separator cfg) c = true ->
  exists ps k', kv k' /\
    parse_field cfg (fnew col row) k (render_cell c)
    = Ok (FLast {| f_address := {| addr_x := col; addr_y := row |};
                   f_value := cell_value c; f_positions := ps |}, k', []).
Proof.
  intros Hk Hsep Hc.
  destruct c as [ps|lead text trail]; cbn [eof_cell_ok] in Hc.
  - apply andb_true_iff in Hc as [Hc Hb]. apply negb_true_iff in Hb.
    destruct (bare_ok_inv _ _ Hc) as [H1 [H2 H3]].
    pose proof (bare_field cfg ps (fnew col row) k [] Hk Hsep eq_refl eq_refl H1 H2 H3 I
                  (or_intror (fun x => x))) as H.
    unfold bare_end in H. rewrite Hb, app_nil_r in H. cbn [render_cell cell_value].
    destruct H as [pos [k' [Hk' H]]]. eauto.
  - apply andb_true_iff in Hc as [Hl Ht].
    destruct (quoted_cell cfg (fnew col row) k lead text trail [] Hk Hsep eq_refl Hl Ht (or_introl eq_refl))
      as [pos [k' [Hk' H]]].
    rewrite app_nil_r in H. eauto.
Qed.

(** ** Records *)
Definition last_fuel_ok (fuel : nat) (cs : list cell_src) := length cs <= fuel.

Lemma join_cons sep c d r : join sep (c :: d :: r) = c ++ sep ++ join sep (d :: r).
Proof. reflexivity. Qed.

Lemma record_fields cfg row (last_ok : cell_src -> bool) tail rest :
  sep_ok (separator cfg) = true ->
  (forall k col c, kv k -> last_ok c = true ->
     exists ps k', kv k' /\ parse_field cfg (fnew col row) k (render_cell c ++ tail)
       = Ok (FLast {| f_address := {| addr_x := col; addr_y := row |};
                      f_value := cell_value c; f_positions := ps |}, k', rest)) ->
  forall cs fuel col acc k,
  kv k -> length cs <= fuel -> cells_ok (separator cfg) last_ok cs = true ->
  exists fs k', kv k' /\ map f_value fs = map cell_value cs /\
    parse_fields fuel cfg row col acc k (join [separator cfg] (map render_cell cs) ++ tail)
    = Ok (RSome (acc ++ fs), k', rest).
Proof.
  intros Hsep Hlast. induction cs as [|c cs IH]; intros fuel col acc k Hk Hf Hok; [discriminate|].
  destruct fuel as [|fuel]; [cbn in Hf; lia|].
  cbn [parse_fields]. change (fb_new {| addr_x := col; addr_y := row |}) with (fnew col row).
  destruct cs as [|d cs'].
  - cbn [cells_ok map join] in *.
    destruct (Hlast k col c Hk Hok) as [ps [k' [Hk' ->]]]. cbn [bind].
    eexists [{| f_address := {| addr_x := col; addr_y := row |};
                f_value := cell_value c; f_positions := ps |}], k'.
    split; [auto|]. split; reflexivity.
  - cbn [cells_ok] in Hok. apply andb_true_iff in Hok as [Hc Hok].
    cbn [map]. rewrite join_cons, <- !app_assoc. cbn [app].
    destruct (inner_cell cfg k col row c
                (join [separator cfg] (map render_cell (d :: cs')) ++ tail) Hk Hsep Hc)
      as [ps [k' [Hk' Heq]]].
    cbn [map] in Heq. rewrite Heq. cbn [bind].
    destruct (IH fuel (S col)
                (acc ++ [{| f_address := {| addr_x := col; addr_y := row |};
                            f_value := cell_value c; f_positions := ps |}]) k' Hk' ltac:(cbn in *; lia) Hok)
      as [fs [k2 [Hk2 [Hv Heq2]]]].
    cbn [map] in Heq2. rewrite Heq2.
    exists ({| f_address := {| addr_x := col; addr_y := row |};
               f_value := cell_value c; f_positions := ps |} :: fs), k2.
    split; [auto|]. split.
    + cbn [map f_value] in *. now rewrite Hv.
    + rewrite <- app_assoc. reflexivity.
Qed.

Lemma join_length_ge sep (ls : list str) :
  sep <> [] -> length ls <= S (length (join sep ls)).
Proof.
  intros Hs. induction ls as [|l ls IH]; cbn [length]; [lia|].
  destruct ls as [|m ls']; [cbn; lia|].
  rewrite join_cons, !app_length. destruct sep; [congruence|]. cbn [length] in *. lia.
Qed.

(** ** Items *)
Lemma ignore_comment t : forall k rest, forallb (fun c => negb (c =? c_nl)%N) t = true -> kv k ->
  exists k', kv k' /\ ignore_line k (t ++ rest) = ignore_line k' rest.
Proof.
  induction t as [|c t IH]; intros k rest H Hk; [exists k; auto|].
  cbn [forallb] in H. apply andb_true_iff in H as [Hc Ht]. apply negb_true_iff in Hc.
  cbn [app ignore_line]. rewrite Hc. apply IH; [auto|now apply kv_advance].
Qed.

Lemma parse_record_item cfg row i last_ok tail rest k :
  sep_ok (separator cfg) = true -> kv k ->
  (tail = c_nl :: rest \/ (tail = [] /\ rest = [])) ->
  (forall k col c, kv k -> last_ok c = true ->
     exists ps k', kv k' /\ parse_field cfg (fnew col row) k (render_cell c ++ tail)
       = Ok (FLast {| f_address := {| addr_x := col; addr_y := row |};
                      f_value := cell_value c; f_positions := ps |}, k', rest)) ->
  item_ok (separator cfg) last_ok i = true ->
  exists k', kv k' /\
  match i with
  | Record_ cs => exists fs, map f_value fs = map cell_value cs /\
      parse_record cfg row k (render_item (separator cfg) i ++ tail) = Ok (RSome fs, k', rest)
  | Comment _ => parse_record cfg row k (render_item (separator cfg) i ++ tail) = Ok (RComment, k', rest)
  end.
Proof.
  intros Hsep Hk Htail Hlast Hok. destruct i as [cs|t]; cbn [item_ok] in Hok.
  - apply andb_true_iff in Hok as [Hcs Hnc]. unfold not_comment in Hnc.
    cbn [render_item] in *.
    set (body := join [separator cfg] (map render_cell cs)) in *.
    assert (Hlen : length cs <= S (length (body ++ tail))).
    { rewrite app_length. pose proof (join_length_ge [separator cfg] (map render_cell cs)) as H.
      rewrite map_length in H. fold body in H. specialize (H ltac:(discriminate)). lia. }
    destruct (record_fields cfg row last_ok tail rest Hsep Hlast cs (S (length (body ++ tail))) 0 [] k
                Hk Hlen Hcs) as [fs [k' [Hk' [Hv Heq]]]].
    exists k'. split; [auto|]. exists fs. split; [auto|].
    cbn [app] in Heq. unfold parse_record. fold body in Heq.
    destruct (body ++ tail) as [|c r] eqn:E; [exact Heq|].
    assert (Hh : (c =? c_hash)%N = false).
    { destruct body as [|b body'].
      - cbn in E. destruct Htail as [->|[-> ->]]; [injection E as <- <-; reflexivity|discriminate].
      - cbn in E. injection E as -> _. now apply negb_true_iff in Hnc. }
    rewrite Hh. exact Heq.
  - cbn [render_item app parse_record ignore_line]. rewrite N.eqb_refl. change (c_hash =? c_nl)%N with false. cbv iota.
    destruct (ignore_comment t (advance c_hash k) tail Hok (kv_advance _ _ Hk)) as [k' [Hk' ->]].
    destruct Htail as [->|[-> ->]].
    + exists (advance c_nl k'). split; [now apply kv_advance|]. reflexivity.
    + exists k'. split; [auto|reflexivity].
Qed.

Lemma parse_records_eof fuel cfg row acc k : 0 < fuel -> parse_records fuel cfg row acc k [] = Ok acc.
Proof. destruct fuel; [lia|]. reflexivity. Qed.

Lemma parse_items cfg final is : forall fuel row acc k,
  sep_ok (separator cfg) = true -> kv k ->
  items_ok (separator cfg) final is = true -> length is < fuel ->
  exists rs, parse_records fuel cfg row acc k (render_items (separator cfg) is final) = Ok (acc ++ rs)
    /\ values rs = flat_map item_values is.
Proof.
  induction is as [|i is IH]; intros fuel row acc k Hsep Hk Hok Hf.
  - cbn [items_ok] in Hok. apply negb_true_iff in Hok. subst final. cbn.
    exists []. rewrite app_nil_r. rewrite parse_records_eof by (cbn in Hf; lia). auto.
  - destruct fuel as [|fuel]; [cbn in Hf; lia|]. cbn [length] in Hf.
    set (tail := match is with [] => if final then [c_nl] else []
                 | _ => c_nl :: render_items (separator cfg) is final end).
    set (rest := match is with [] => [] | _ => render_items (separator cfg) is final end).
    set (lok := match is with
                | [] => if final then line_end_cell_ok (separator cfg) else eof_cell_ok (separator cfg)
                | _ => line_end_cell_ok (separator cfg) end).
    assert (Htext : render_items (separator cfg) (i :: is) final = render_item (separator cfg) i ++ tail).
    { unfold render_items, tail. destruct is as [|j is']; cbn [map join]; [reflexivity|].
      unfold render_items. cbn [map]. rewrite <- !app_assoc. reflexivity. }
    assert (Htail : tail = c_nl :: rest \/ (tail = [] /\ rest = [])).
    { unfold tail, rest. destruct is; [destruct final|]; auto. }
    assert (Hi : item_ok (separator cfg) lok i = true /\ (is <> [] -> items_ok (separator cfg) final is = true)).
    { cbn [items_ok] in Hok. unfold lok. destruct is; [split; [exact Hok|congruence]|].
      apply andb_true_iff in Hok as [? ?]. auto. }
    destruct Hi as [Hi Hrest].
    assert (Hlast : forall k col c, kv k -> lok c = true ->
       exists ps k', kv k' /\ parse_field cfg (fnew col row) k (render_cell c ++ tail)
         = Ok (FLast {| f_address := {| addr_x := col; addr_y := row |};
                        f_value := cell_value c; f_positions := ps |}, k', rest)).
    { intros k0 col c Hk0 Hc. unfold lok in Hc. unfold tail, rest.
      destruct is as [|j is']; [destruct final|].
      - now apply line_end_cell.
      - rewrite app_nil_r. now apply eof_cell.
      - now apply line_end_cell. }
    destruct (parse_record_item cfg row i lok tail rest k Hsep Hk Htail Hlast Hi) as [k' [Hk' Hrec]].
    rewrite Htext. cbn [parse_records].
    assert (Hnext : forall row' acc', exists rs,
       parse_records fuel cfg row' acc' k' rest = Ok (acc' ++ rs) /\ values rs = flat_map item_values is).
    { intros row' acc'. unfold rest. destruct is as [|j is'].
      - exists []. rewrite app_nil_r, parse_records_eof by (cbn in Hf; lia). auto.
      - apply IH; auto; [apply Hrest; discriminate|cbn in *; lia]. }
    destruct i as [cs|t].
    + destruct Hrec as [fs [Hv ->]]. cbn [bind].
      destruct (Hnext (S row) (acc ++ [fs])) as [rs [-> Hvs]].
      exists (fs :: rs). rewrite <- app_assoc. split; [reflexivity|].
      cbn [flat_map item_values app]. unfold values in *. cbn [map]. now rewrite Hv, Hvs.
    + rewrite Hrec. cbn [bind]. destruct (Hnext row acc) as [rs [-> Hvs]].
      exists rs. auto.
Qed.

Lemma skip_repeat n : forall k s, (match s with c :: _ => negb (c =? c_nl)%N | [] => true end) = true ->
  kv k -> exists k', kv k' /\ skip_newlines k (repeat c_nl n ++ s) = (k', s).
Proof.
  induction n as [|n IH]; intros k s Hs Hk.
  - exists k. split; [auto|]. cbn. destruct s as [|c r]; [reflexivity|].
    cbn. apply negb_true_iff in Hs. now rewrite Hs.
  - cbn [repeat app skip_newlines]. rewrite N.eqb_refl. apply IH; [auto|now apply kv_advance].
Qed.


Lemma join_length_eq (c : char) ls :
  length (join [c] ls) = list_sum (map (@length char) ls) + (length ls - 1).
Proof.
  induction ls as [|l ls IH]; [reflexivity|]. destruct ls as [|m ls']; [cbn; lia|].
  rewrite join_cons, !app_length, IH. cbn. lia.
Qed.

Lemma items_length sep is final : items_ok sep final is = true ->
  length is <= length (render_items sep is final).
Proof.
  intros H. destruct is as [|i0 is0] eqn:Eis; [cbn; lia|]. rewrite <- Eis in *.
  assert (Hne : is <> []) by congruence. clear Eis i0 is0.
  unfold render_items. rewrite app_length, join_length_eq, map_length.
  destruct final; [cbn; lia|]. cbn [length]. rewrite Nat.add_0_r.
  assert (Hpos : 1 <= list_sum (map (@length char) (map (render_item sep) is))).
  { induction is as [|i is IH]; [congruence|].
    destruct is as [|j is'].
    - cbn [items_ok] in H. destruct i as [cs|t].
      + cbn [item_ok] in H. apply andb_true_iff in H as [H _]. cbn.
        enough (1 <= length (join [sep] (map render_cell cs))) by lia.
        rewrite join_length_eq, map_length. destruct cs as [|c cs]; [discriminate|].
        destruct cs as [|d cs']; [|cbn; lia].
        cbn [cells_ok map list_sum fold_right length] in *.
        assert (1 <= length (render_cell c)); [|cbn; lia].
        destruct c as [ps|l t tr]; cbn [eof_cell_ok] in H.
        * apply andb_true_iff in H as [_ Hb]. apply negb_true_iff in Hb. cbn.
          destruct (join continuation ps) as [|x y] eqn:E; [|cbn; lia].
          exfalso. destruct ps as [|p ps]; [discriminate|]. destruct ps as [|q ps'].
          -- cbn in E. subst p. discriminate.
          -- rewrite pieces_cons in E. destruct p; discriminate.
        * cbn [render_cell]. rewrite !app_length. cbn. lia.
      + cbn. lia.
    - cbn [items_ok] in H. apply andb_true_iff in H as [_ H].
      specialize (IH H ltac:(discriminate)). cbn [map list_sum fold_right] in *. lia. }
  lia.
Qed.

Lemma csvp_document cfg d : doc_ok (separator cfg) d = true ->
  exists rs, csvp_parse cfg (render (separator cfg) d) = Ok rs /\ values rs = doc_values d.
Proof.
  unfold doc_ok. rewrite !andb_true_iff. intros [[Hsep Hok] Hnl].
  unfold csvp_parse, render, doc_values.
  destruct (skip_repeat (blank_lines d) cursor_init _ Hnl ltac:(unfold kv; cbn; lia)) as [k' [Hk' ->]].
  pose proof (items_length _ _ _ Hok) as Hlen.
  destruct (parse_items cfg (final_newline d) (items d)
              (S (length (render_items (separator cfg) (items d) (final_newline d)))) 0 [] k'
              Hsep Hk' Hok ltac:(lia)) as [rs [H1 H2]].
  exists rs. auto.
Qed.
