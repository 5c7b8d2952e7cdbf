(** * FinalNewline: a newline at the end of a spreadsheet does not matter if a cell ends there visibly. *)
From Verif Require Import Base BaseProofs Csvp CellFewer.

(** the text ends in a visible character that is neither the separator nor a backslash *)
Fixpoint ends_visibly (sep : char) (s : str) : Prop :=
  match s with
  | [] => False
  | [c] => is_ws c = false /\ c <> sep /\ c <> c_backslash
  | _ :: r => ends_visibly sep r
  end.

Section Newline.
  Variable cfg : config.
  Hypothesis Sep : (separator cfg =? c_nl)%N = false.
  Let good := ends_visibly (separator cfg).
  Lemma good_tail c r : good (c :: r) -> r = [] /\ is_ws c = false /\ c <> separator cfg /\ c <> c_backslash \/ r <> [] /\ good r.
  Proof. unfold good. destruct r as [|d r]; cbn [ends_visibly]; [left; auto|right; split; [discriminate|auto]]. Qed.
  Definition rest_rel (k k' : cursor) (s s' : str) : Prop := s = [] /\ s' = [] \/ good s /\ s' = s ++ [c_nl] /\ k' = k.
  Definition fr_rel (r r' : field_result) : Prop :=
    match r, r' with FSome f, FSome f' | FLast f, FLast f' => fewer_places f f' | FEof, FEof => True | _, _ => False end.
  Definition step_rel {A} (R : A -> A -> Prop) (x y : step A) : Prop :=
    match x, y with
    | Ok (r, k, s), Ok (r', k', s') => R r r' /\ rest_rel k k' s s'
    | Err _, Err _ | Panic, Panic => True
    | NoFuel, _ | _, NoFuel => True
    | _, _ => False
    end.
  Lemma same_build fb : fewer_places (fb_build fb) (fb_build fb).
  Proof. split; [reflexivity|]. split; [reflexivity|]. lia. Qed.
  Lemma step_refl {A} (R : A -> A -> Prop) (r : A) k r1 : R r r -> good r1 -> step_rel R (Ok (r, k, r1)) (Ok (r, k, r1 ++ [c_nl])).
  Proof. intros H G. split; [exact H|]. right. auto. Qed.
  Lemma sep_eqb c : (c =? separator cfg)%N = true -> c = separator cfg.
  Proof. apply N.eqb_eq. Qed.
  Lemma unquoted_nl : forall n fb k s, length s <= n -> good s \/ s = [] -> step_rel fr_rel (parse_unquoted cfg fb k s) (parse_unquoted cfg fb k (s ++ [c_nl])).
  Proof.
    assert (N0 : forall fb k, step_rel fr_rel (parse_unquoted cfg fb k []) (parse_unquoted cfg fb k ([] ++ [c_nl]))).
    { intros fb k. cbn [app parse_unquoted]. rewrite (N.eqb_sym c_nl (separator cfg)), Sep. cbn. split; [apply same_build|left; auto]. }
    induction n as [|n IH]; intros fb k s L G; destruct s as [|c r]; cbn [length] in L; try lia; try apply N0.
    destruct G as [G|G]; [|discriminate G]. apply good_tail in G. cbn [app parse_unquoted].
    assert (Cont : step_rel fr_rel
      (if (c =? separator cfg)%N then Ok (FSome (fb_build fb), advance c k, r) else if is_record_terminator c then Ok (FLast (fb_build fb), advance c k, r) else do fb' <- fb_push cfg fb c (advance c k); parse_unquoted cfg fb' (advance c k) r)
      (if (c =? separator cfg)%N then Ok (FSome (fb_build fb), advance c k, r ++ [c_nl]) else if is_record_terminator c then Ok (FLast (fb_build fb), advance c k, r ++ [c_nl]) else do fb' <- fb_push cfg fb c (advance c k); parse_unquoted cfg fb' (advance c k) (r ++ [c_nl]))).
    { destruct (N.eqb_spec c (separator cfg)) as [->|Ns]; [destruct G as [[_ [_ [G _]]]|[_ G]]; [contradiction|apply step_refl; [apply same_build|exact G]]|].
      unfold is_record_terminator. destruct (N.eqb_spec c c_nl) as [->|Nn]; [destruct G as [[_ [G _]]|[_ G]]; [discriminate G|apply step_refl; [apply same_build|exact G]]|].
      destruct (fb_push cfg fb c (advance c k)) as [fb'| | |]; cbn [bind]; try exact I. apply IH; [lia|]. destruct G as [[-> _]|[_ G]]; auto. }
    destruct (N.eqb_spec c c_backslash) as [->|Nb]; [|exact Cont]. destruct r as [|n0 r']; [destruct G as [[_ [_ [_ G]]]|[G _]]; [contradiction|destruct (G eq_refl)]|].
    cbn [app] in *. destruct (N.eqb_spec n0 c_nl) as [->|_]; [|exact Cont]. apply IH; [cbn [length] in L; lia|]. destruct G as [[G _]|[_ G]]; [discriminate G|]. apply good_tail in G. destruct G as [[-> [G _]]|[_ G]]; auto.
  Qed.
  Lemma rest_nl : forall fb k s, good s \/ s = [] -> step_rel fr_rel (parse_rest_of_quoted cfg fb k s) (parse_rest_of_quoted cfg fb k (s ++ [c_nl])).
  Proof.
    intros fb k s. revert k. induction s as [|c r IH]; intros k G.
    - cbn. split; [apply same_build|left; auto].
    - destruct G as [G|G]; [|discriminate G]. apply good_tail in G. cbn [app parse_rest_of_quoted]. destruct (is_ws c) eqn:W.
      + apply IH. destruct G as [[-> _]|[_ G]]; auto.
      + destruct (N.eqb_spec c (separator cfg)) as [->|Ns]; [destruct G as [[_ [_ [G _]]]|[_ G]]; [contradiction|apply step_refl; [apply same_build|exact G]]|].
        unfold parse_error. destruct (cursor_position cfg _); exact I.
  Qed.
  Lemma trim_nl v : trim (v ++ [c_nl]) = trim v.
  Proof.
    unfold trim. destruct (trim_start v) as [|c w] eqn:T.
    - apply trim_start_blank in T. assert (B : forallb is_ws (v ++ [c_nl]) = true) by (rewrite forallb_app, T; reflexivity). apply trim_start_blank in B. rewrite B. reflexivity.
    - assert (Q : trim_start (v ++ [c_nl]) = (c :: w) ++ [c_nl]).
      { destruct (trim_start_suffix v) as [a [Ea Wa]]. pose proof (trim_start_head _ _ _ T) as Hc. rewrite Ea, T, <- app_assoc. rewrite (trim_start_app_ws _ _ Wa). cbn [app]. apply trim_start_nonws. exact Hc. }
      rewrite Q. unfold trim_end. rewrite rev_app_distr. reflexivity.
  Qed.
  Lemma quoted_nl : forall n fb esc k s, length s <= n -> good s \/ s = [] -> (esc = true -> s <> []) -> step_rel fr_rel (parse_quoted cfg fb esc k s) (parse_quoted cfg fb esc k (s ++ [c_nl])).
  Proof.
    assert (N0 : forall fb k, step_rel fr_rel (parse_quoted cfg fb false k []) (parse_quoted cfg fb false k ([] ++ [c_nl]))).
    { intros fb k. cbn [app parse_quoted]. change (c_nl =? c_dquote)%N with false. unfold fb_push, cursor_position. cbn. split; [|left; auto]. split; [reflexivity|]. cbn. split; [symmetry; apply trim_nl|]. rewrite app_length. lia. }
    induction n as [|n IH]; intros fb esc k s L G He; destruct s as [|c r]; cbn [length] in L; try lia.
    1, 2: destruct esc; [destruct (He eq_refl eq_refl)|apply N0].
    destruct G as [G|G]; [|discriminate G]. apply good_tail in G. assert (G' : good r \/ r = []) by (destruct G as [[-> _]|[_ G]]; auto).
    cbn [app parse_quoted].
    assert (Push : step_rel fr_rel (do fb' <- fb_push cfg fb c (advance c k); parse_quoted cfg fb' false (advance c k) r) (do fb' <- fb_push cfg fb c (advance c k); parse_quoted cfg fb' false (advance c k) (r ++ [c_nl]))).
    { destruct (fb_push cfg fb c (advance c k)) as [fb'| | |]; cbn [bind]; try exact I. apply IH; [lia|exact G'|discriminate]. }
    destruct esc; [exact Push|]. destruct (c =? c_dquote)%N; [|exact Push].
    destruct r as [|q r']; cbn [app]; [change (c_nl =? c_dquote)%N with false; apply (rest_nl fb (advance c k) []); auto|].
    destruct (q =? c_dquote)%N; [apply (IH fb true (advance c k) (q :: r')); [lia|exact G'|discriminate]|apply (rest_nl fb (advance c k) (q :: r')); exact G'].
  Qed.
  Lemma field_nl : forall n fb k s, length s <= n -> good s -> step_rel fr_rel (parse_field cfg fb k s) (parse_field cfg fb k (s ++ [c_nl])).
  Proof.
    induction n as [|n IH]; intros fb k s L G; destruct s as [|c r]; cbn [length] in L; try lia; try contradiction.
    apply good_tail in G. assert (G' : good r \/ r = []) by (destruct G as [[-> _]|[_ G]]; auto). cbn [app parse_field].
    destruct (is_ws c) eqn:W; [destruct G as [[_ [G _]]|[_ G]]; [congruence|]|].
    - unfold is_record_terminator. destruct (N.eqb_spec c c_nl) as [->|Nn]; cbn [negb andb]; [|apply IH; [lia|exact G]].
      rewrite (N.eqb_sym c_nl (separator cfg)), Sep. apply step_refl; [apply same_build|exact G].
    - rewrite andb_false_r. destruct (N.eqb_spec c (separator cfg)) as [->|Ns]; [destruct G as [[_ [_ [G _]]]|[_ G]]; [contradiction|apply step_refl; [apply same_build|exact G]]|].
      unfold is_record_terminator. destruct (N.eqb_spec c c_nl) as [->|Nn]; [discriminate W|].
      assert (Cont : step_rel fr_rel (if (c =? c_dquote)%N then parse_quoted cfg fb false (advance c k) r else do fb' <- fb_push cfg fb c (advance c k); parse_unquoted cfg fb' (advance c k) r)
        (if (c =? c_dquote)%N then parse_quoted cfg fb false (advance c k) (r ++ [c_nl]) else do fb' <- fb_push cfg fb c (advance c k); parse_unquoted cfg fb' (advance c k) (r ++ [c_nl]))).
      { destruct (c =? c_dquote)%N; [apply quoted_nl with (n := n); [lia|exact G'|discriminate]|]. destruct (fb_push cfg fb c (advance c k)) as [fb'| | |]; cbn [bind]; try exact I. apply unquoted_nl with (n := n); [lia|exact G']. }
      destruct (N.eqb_spec c c_backslash) as [->|Nb]; [|exact Cont]. destruct r as [|n0 r']; [destruct G as [[_ [_ [_ G]]]|[G _]]; [contradiction|destruct (G eq_refl)]|].
      cbn [app] in *. destruct (N.eqb_spec n0 c_nl) as [->|_]; [|exact Cont]. destruct G as [[G _]|[_ G]]; [discriminate G|]. apply good_tail in G. destruct G as [[_ [G _]]|[_ G]]; [discriminate G|]. apply IH; [cbn [length] in L; lia|exact G].
  Qed.
  Definition rr_rel (r r' : record_result) : Prop :=
    match r, r' with RComment, RComment | REof, REof => True | RSome fs, RSome fs' => Forall2 fewer_places fs fs' | _, _ => False end.
  Lemma ignore_nl k s : good s -> let (k1, s1) := ignore_line k s in let (k2, s2) := ignore_line k (s ++ [c_nl]) in rest_rel k1 k2 s1 s2.
  Proof.
    assert (N0 : forall k, let (k1, s1) := ignore_line k [] in let (k2, s2) := ignore_line k ([] ++ [c_nl]) in rest_rel k1 k2 s1 s2) by (intro k0; cbn; left; auto).
    revert k. induction s as [|c r IH]; intros k G; [contradiction|]. apply good_tail in G. cbn [app ignore_line]. destruct (N.eqb_spec c c_nl) as [->|Nn].
    - destruct G as [[_ [G _]]|[_ G]]; [discriminate G|]. right. auto.
    - destruct G as [[-> _]|[_ G]]; [apply N0|apply IH; exact G].
  Qed.
  Lemma fields_nl row : forall n n' col fs fs' k k' s s', rest_rel k k' s s' -> Forall2 fewer_places fs fs' ->
    (fs = [] -> s <> []) -> step_rel rr_rel (parse_fields n cfg row col fs k s) (parse_fields n' cfg row col fs' k' s').
  Proof.
    induction n as [|n IH]; intros n' col fs fs' k k' s s' R F Nf; [exact I|]. destruct n' as [|n']; [cbn [parse_fields]; destruct (bind _ _) as [[[? ?] ?]| | |]; exact I|]. cbn [parse_fields].
    destruct R as [[-> ->]|[G [-> ->]]].
    - cbn [parse_field bind]. split; [|left; auto]. destruct F; [destruct (Nf eq_refl eq_refl)|]. constructor; assumption.
    - pose proof (field_nl _ (fb_new {| addr_x := col; addr_y := row |}) k s (le_n _) G) as St.
      destruct (parse_field cfg _ k s) as [[[fr k1] s1]| | |]; destruct (parse_field cfg _ k (s ++ [c_nl])) as [[[fr' k2] s2]| | |]; cbn [step_rel] in St; try contradiction; cbn [bind]; try exact I;
        try (destruct fr as [f|f|]; try exact I; destruct (parse_fields n _ _ _ _ _ _) as [[[? ?] ?]| | |]; exact I); try (destruct fr' as [f|f|]; try exact I; destruct (parse_fields n' _ _ _ _ _ _) as [[[? ?] ?]| | |]; exact I).
      destruct St as [Sr Sk]. destruct fr as [f|f|], fr' as [f'|f'|]; cbn [fr_rel] in Sr; try contradiction.
      + apply IH; [exact Sk|apply Forall2_app; [exact F|constructor; [exact Sr|constructor]]|intro X; destruct fs; discriminate X].
      + split; [|exact Sk]. cbn [rr_rel]. apply Forall2_app; [exact F|constructor; [exact Sr|constructor]].
      + split; [|exact Sk]. destruct F; cbn [rr_rel]; auto.
  Qed.
  Lemma record_nl row k s : good s -> step_rel rr_rel (parse_record cfg row k s) (parse_record cfg row k (s ++ [c_nl])).
  Proof.
    intro G. unfold parse_record. destruct s as [|c r] eqn:Es; [contradiction|]. rewrite <- Es in *. replace (s ++ [c_nl]) with (c :: (r ++ [c_nl])) by (rewrite Es; reflexivity).
    assert (Q : s ++ [c_nl] = c :: (r ++ [c_nl])) by (rewrite Es; reflexivity).
    rewrite <- Q. destruct (c =? c_hash)%N.
    - pose proof (ignore_nl k s G) as R. destruct (ignore_line k s) as [k1 s1], (ignore_line k (s ++ [c_nl])) as [k2 s2]. split; [exact I|exact R].
    - apply fields_nl; [right; auto|constructor|intros _; rewrite Es; discriminate].
  Qed.
  Definition out_rel (x y : outcome csvp_error (list (list field))) : Prop :=
    match x, y with
    | Ok rs, Ok rs' => Forall2 (Forall2 fewer_places) rs rs'
    | Err _, Err _ | Panic, Panic => True
    | NoFuel, _ | _, NoFuel => True
    | _, _ => False
    end.
  Lemma records_nl : forall n n' row rs rs' k k' s s', rest_rel k k' s s' -> Forall2 (Forall2 fewer_places) rs rs' ->
    out_rel (parse_records n cfg row rs k s) (parse_records n' cfg row rs' k' s').
  Proof.
    induction n as [|n IH]; intros n' row rs rs' k k' s s' R F; [exact I|]. destruct n' as [|n']; [cbn [parse_records]; destruct (bind _ _) as [?| | |]; exact I|]. cbn [parse_records].
    destruct R as [[-> ->]|[G [-> ->]]]; [exact F|].
    pose proof (record_nl row k s G) as St.
    destruct (parse_record cfg row k s) as [[[rr k1] s1]| | |]; destruct (parse_record cfg row k (s ++ [c_nl])) as [[[rr' k2] s2]| | |]; cbn [step_rel] in St; try contradiction; cbn [bind]; try exact I;
      try (destruct rr; try exact I; destruct (parse_records n _ _ _ _ _) as [?| | |]; exact I); try (destruct rr'; try exact I; destruct (parse_records n' _ _ _ _ _) as [?| | |]; exact I).
    destruct St as [Sr Sk]. destruct rr as [| |fs], rr' as [| |fs']; cbn [rr_rel] in Sr; try contradiction.
    - apply IH; assumption.
    - exact F.
    - apply IH; [exact Sk|]. apply Forall2_app; [exact F|constructor; [exact Sr|constructor]].
  Qed.
  Lemma skip_nl : forall s k, good s -> let (k1, s1) := skip_newlines k s in let (k2, s2) := skip_newlines k (s ++ [c_nl]) in k2 = k1 /\ s2 = s1 ++ [c_nl] /\ good s1.
  Proof.
    induction s as [|c r IH]; intros k G; [contradiction|]. cbn [app skip_newlines]. pose proof (good_tail _ _ G) as T. destruct (N.eqb_spec c c_nl) as [->|Nn]; [|auto].
    destruct T as [[_ [T _]]|[_ T]]; [discriminate T|]. apply IH. exact T.
  Qed.
  Theorem csvp_final_newline s : good s -> out_rel (csvp_parse cfg s) (csvp_parse cfg (s ++ [c_nl])).
  Proof.
    intro G. unfold csvp_parse. pose proof (skip_nl s cursor_init G) as Sk. destruct (skip_newlines cursor_init s) as [k1 s1], (skip_newlines cursor_init (s ++ [c_nl])) as [k2 s2].
    destruct Sk as [-> [-> G1]]. apply records_nl; [right; auto|constructor].
  Qed.
End Newline.
