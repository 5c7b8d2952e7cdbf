(** * PropRestyle: how cells look does not change what is written (C93). *)
From Verif Require Import Base BaseProofs Csvp SourceCode SourceSpec Ast AstParser Eval EvalSpec Options CellParser CodeSectionSpec
  Sheet SheetSpec ModuleProofs3 Loader LoaderSpec Files Targets CompileSpec PropCell PropSheet PropVariables PropLoader PropCache PropModules PropCompile SameSpec SameProofs SameLoad PropSame EditLoad PropEdit CellSpec RestyleSpec RestyleProofs.

Lemma restyled_texts s s' : restyled s s' -> sheet_texts s = sheet_texts s'.
Proof.
  intros [_ F]. unfold sheet_texts. induction F as [|r r' l l' [_ [_ H]] _ IH]; [reflexivity|]. cbn [map]. f_equal; [|exact IH].
  induction H as [|c c' cs cs' H _ IHc]; [reflexivity|]. cbn [map]. f_equal; [apply (restyled_show _ _ H)|exact IHc].
Qed.
Lemma restyle_pair E uc args name F F' text text' time time' p p' :
  sources F [name] = Some (text, time) -> no_object F [name] \/ older_object F [name] ->
  sources F' [name] = Some (text', time') -> no_object F' [name] \/ older_object F' [name] ->
  load_source (e_co E) text = Ok p -> load_source (e_co E) text' = Ok p' ->
  pr_scope p' = pr_scope p -> pr_required p' = pr_required p -> restyled (pr_sheet p) (pr_sheet p') ->
  (forall q w, reachable (load_one E F uc) (as_main E name p) q w -> load_one E F uc q w = load_one E F' uc q w) ->
  forall r, compiles E uc args name F r -> exists r', compiles E uc args name F' r' /\ same_values (fst r) (fst r').
Proof.
  intros So No So' No' Ld Ld' Sc Rq Rs La r C.
  destruct (edit_main E uc args args name F F' text text' time time' p p' (fun o o' => omap bare_sheet o = omap bare_sheet o') No No' So So' Ld Ld' (eq_sym Rq) La) with (r := r) as [r' [C' B]]; [|exact C|].
  - intros ld sc Mr. rewrite Sc. exists sc. split; [exact Mr|]. rewrite Rq. apply restyled_eval. exact Rs.
  - exists r'. split; [exact C'|]. destruct B as [[o [o' [H [D D']]]]|[N Eq]].
    + destruct o as [s|e| |], o' as [s'|e'| |]; cbn [omap] in H; try discriminate H; cbn [delivered] in *.
      * assert (H' : bare_sheet s = bare_sheet s') by congruence. clear H. rename H' into H. destruct (uc && negb (e_writable E [name])); [rewrite D, D'; reflexivity|]. destruct D as [m [-> <-]], D' as [m' [-> <-]]. cbn [same_values]. apply bare_sheet_spec. exact H.
      * injection H as <-. rewrite D, D'. reflexivity.
      * rewrite D, D'. exact I.
      * rewrite D, D'. exact I.
    + rewrite <- Eq. destruct (fst r); [discriminate N|reflexivity|exact I..].
Qed.
(** Two files with the same code section whose cells have the same texts after their option lists, and whose lists have the same
    names and fills, compile to sheets with the same values, or fail with the same error: for every compilation of the one there is
    such a compilation of the other (which, if the one can be read, can be read too). No import may lead back to the file. *)
Theorem C93_file : forall E use_cache args name F F' text text' time time' p,
  sources F [name] = Some (text, time) -> no_object F [name] \/ older_object F [name] ->
  sources F' [name] = Some (text', time') -> no_object F' [name] \/ older_object F' [name] ->
  same_elsewhere F F' name -> objects_in_place F -> main_not_imported E F use_cache name ->
  load_source (e_co E) text = Ok p -> restyled_file (e_co E) text text' ->
  forall r, compiles E use_cache args name F r -> exists r', compiles E use_cache args name F' r' /\ same_values (fst r) (fst r').
Proof.
  intros E uc args name F F' text text' time time' p So No So' No' Se Op Nm Ld Rf. destruct (load_restyled _ _ _ _ Rf Ld) as [p' [Ld' [Sc [Rq Rs]]]].
  eapply restyle_pair; eauto. intros q w Hq. eapply load_elsewhere; [exact Se|exact Op|exact Nm| |exact Hq]. unfold load_from_source. rewrite So, Ld. reflexivity.
Qed.
Print Assumptions C93_file.
(** Without imports every compilation of the other is such. *)
Theorem C93_no_imports : forall E use_cache args name F F' text text' time time' p,
  sources F [name] = Some (text, time) -> no_object F [name] \/ older_object F [name] ->
  sources F' [name] = Some (text', time') -> no_object F' [name] \/ older_object F' [name] ->
  load_source (e_co E) text = Ok p -> pr_required p = [] -> restyled_file (e_co E) text text' ->
  forall r r', compiles E use_cache args name F r -> compiles E use_cache args name F' r' -> same_values (fst r) (fst r').
Proof.
  intros E uc args name F F' text text' time time' p So No So' No' Ld Nr Rf r r' C C'. destruct (load_restyled _ _ _ _ Rf Ld) as [p' [Ld' [Sc [Rq Rs]]]].
  destruct (restyle_pair E uc args name F F' text text' time time' p p' So No So' No' Ld Ld' Sc Rq Rs) with (r := r) as [r'' [C'' H]]; [|exact C|].
  - intros q w Hr. destruct (no_imports_reach _ _ _ _ _ _ Nr Hr).
  - rewrite (no_imports_one E uc args name F' text' time' p' r' r'' No' So' Ld' ltac:(congruence) C' C''). exact H.
Qed.
Print Assumptions C93_no_imports.
(** Such results give the same CSV file, byte for byte, and the same files altogether, whatever was there before and whatever the
    settings; *)
Theorem C93_csv : forall r r', same_values r r' ->
  forall read creatable writable now backup overwrite p files,
  main_program read creatable writable now backup overwrite p r files = main_program read creatable writable now backup overwrite p r' files.
Proof.
  intros r r' H read creatable writable now backup overwrite p files.
  destruct r as [m|e| |], r' as [m'|e'| |]; try contradiction; [|cbn [same_values] in H; subst e'; reflexivity|reflexivity..].
  assert (W : forall G, write_csv read writable overwrite p (pr_sheet (m_program m)) G = write_csv read writable overwrite p (pr_sheet (m_program m')) G).
  { intro G. unfold write_csv. destruct (match G p with Some text => read text | None => Some [] end); [|reflexivity]. rewrite (csv_restyled _ _ _ _ H). reflexivity. }
  cbn [main_program]. cbv zeta. destruct backup; [|apply W]. destruct (backup_file creatable now files p) as [[?|?| |] G]; try reflexivity. apply W.
Qed.
Print Assumptions C93_csv.
(** requests to a Google sheet that differ only in the formats, and Excel sheets whose cells hold the same. *)
Theorem C93_google : forall V m m', same_values (Ok m) (Ok m') -> forall overwrite offset (ex : list (list (existing V))),
  sent_requests (google_requests overwrite offset ex (sheet_rows (module_sheet m))) = sent_requests (google_requests overwrite offset ex (sheet_rows (module_sheet m'))).
Proof. intros V m m' H ow offset ex. apply google_restyled. exact H. Qed.
Print Assumptions C93_google.
Theorem C93_excel : forall V m m', same_values (Ok m) (Ok m') -> forall overwrite (w : worksheet V) at_,
  holds (build_worksheet overwrite (module_sheet m) w) at_ = holds (build_worksheet overwrite (module_sheet m') w) at_.
Proof. intros V m m' H ow w p. apply excel_restyled. exact H. Qed.
Print Assumptions C93_excel.

(** a filled row with a name, with and without formats *)
Definition ex_styled : string := ex_code ++ "![[fill=2 text=bold]][[var=x]]a,[[n='why' c=ff0000]]=rate + 1".
Definition ex_unstyled : string := ex_code ++ "![[fill=2]][[ha=left var=x]] a,=rate + 1".
Definition ex_rs (t : string) : list (list field) := match fields_of (lit t) with Ok rs => rs | _ => [] end.
Lemma ex_assigns v : assigns (lit "=" ++ v) v.
Proof. exists [], []. split; [reflexivity|]. split; reflexivity. Qed.
Lemma ex_word w : word_char (hd 0%N w) = true -> forallb word_char w = true -> word w.
Proof. intros H F. split; [|exact F]. intros ->. discriminate H. Qed.
Lemma ex_sep : opt_sep true (lit " ").
Proof. left. split; [reflexivity|discriminate]. Qed.
Ltac the_field t l v := exists {| rd_text := lit t; rd_lists := l; rd_value := lit v |}.
Lemma ex_fill_text : opt_text ex_co true true (lit "fill=2") (OFill (Some 2)).
Proof. apply (ot_fill_amount ex_co true true (lit "fill") (lit "=2") (lit "2") 2%N); [reflexivity|right; left; reflexivity|apply ex_assigns|split; reflexivity|vm_compute; discriminate]. Qed.
Lemma ex_bold_text : opt_text ex_co true true (lit "text=bold") (OText TFBold).
Proof. apply (ot_text ex_co true true (lit "text") (lit "=bold") (lit "bold")); [right; left; reflexivity|apply ex_assigns|apply ex_word; reflexivity|left; reflexivity]. Qed.
Lemma ex_var_text : opt_text ex_co true false (lit "var=x") (OVar (lit "x")).
Proof. apply (ot_var ex_co true false (lit "var") (lit "=x") (lit "x")); [right; left; reflexivity|apply ex_assigns|apply ex_word; reflexivity]. Qed.
Lemma ex_left_text : opt_text ex_co true false (lit "ha=left") (OHalign HLeft).
Proof. apply (ot_halign ex_co true false (lit "ha") (lit "=left") (lit "left")); [left; reflexivity|apply ex_assigns|apply ex_word; reflexivity|left; reflexivity]. Qed.
Lemma ex_note_text : opt_text ex_co true false (lit "n='why'") (ONote (lit "why")).
Proof.
  apply (ot_note ex_co true false (lit "n") (lit "='why'") (lit "'why'")); [left; reflexivity|apply ex_assigns|]. left. exists (lit "why"). split; [reflexivity|].
  repeat (apply qb_plain; [discriminate|discriminate|]). apply qb_nil.
Qed.
Lemma ex_color_text : opt_text ex_co true false (lit "c=ff0000") (OColor {| red := 255; green := 0; blue := 0 |}).
Proof.
  apply (ot_color ex_co true false (lit "c") (lit "=ff0000") (lit "ff0000")); [left; reflexivity|apply ex_assigns|]. left.
  apply (hex_long 102 102 48 48 48 48 15 15 0 0 0 0); unfold is_hex; lia.
Qed.
Lemma ex_restyled : restyled_file ex_co (lit ex_styled) (lit ex_unstyled).
Proof.
  split; [vm_compute; reflexivity|]. exists (ex_rs ex_styled), (ex_rs ex_unstyled). split; [vm_compute; reflexivity|]. split; [vm_compute; reflexivity|].
  assert (V : forall A (P : A -> A -> Prop) a b, P a b -> forall l l', l = [a] -> l' = [b] -> Forall2 P l l') by (intros; subst; constructor; [assumption|constructor]).
  eapply V; [|vm_compute; reflexivity|vm_compute; reflexivity]. constructor; [|constructor; [|constructor]].
  - the_field "![[fill=2 text=bold]][[var=x]]"%string [(true, [OFill (Some 2); OText TFBold]); (false, [OVar (lit "x")])] "a"%string.
    the_field "![[fill=2]][[ha=left var=x]]"%string [(true, [OFill (Some 2)]); (false, [OHalign HLeft; OVar (lit "x")])] " a"%string.
    split; [|split; [|split; [reflexivity|split; [reflexivity|split; [reflexivity|split; [|split; reflexivity]]]]]].
    + split; [reflexivity|]. split; [|split; intros [r H]; discriminate H].
      apply (ls_row ex_co true [] (lit "fill=2 text=bold]]")); [reflexivity| |apply (ls_cell ex_co true [] (lit "var=x]]") _ []); [reflexivity| |constructor]].
      * apply (os_more ex_co true true [] (lit "fill=2") _ (lit " ") (lit "text=bold]]")); [reflexivity|exact ex_fill_text|exact ex_sep|].
        apply (os_last ex_co true true [] (lit "text=bold") _ []); [reflexivity|exact ex_bold_text|reflexivity].
      * apply (os_last ex_co true false [] (lit "var=x") _ []); [reflexivity|exact ex_var_text|reflexivity].
    + split; [reflexivity|]. split; [|split; intros [r H]; discriminate H].
      apply (ls_row ex_co true [] (lit "fill=2]]")); [reflexivity| |apply (ls_cell ex_co true [] (lit "ha=left var=x]]") _ []); [reflexivity| |constructor]].
      * apply (os_last ex_co true true [] (lit "fill=2") _ []); [reflexivity|exact ex_fill_text|reflexivity].
      * apply (os_more ex_co true false [] (lit "ha=left") _ (lit " ") (lit "var=x]]")); [reflexivity|exact ex_left_text|exact ex_sep|].
        apply (os_last ex_co true false [] (lit "var=x") _ []); [reflexivity|exact ex_var_text|reflexivity].
    + split; [left; reflexivity|cbn; lia].
  - the_field "[[n='why' c=ff0000]]"%string [(false, [ONote (lit "why"); OColor {| red := 255; green := 0; blue := 0 |}])] "=rate + 1"%string.
    the_field ""%string (@nil (bool * list opt)) "=rate + 1"%string.
    split; [|split; [|split; [reflexivity|split; [reflexivity|split; [reflexivity|split; [|split; reflexivity]]]]]].
    + split; [reflexivity|]. split; [|split; intros [r H]; discriminate H].
      apply (ls_cell ex_co true [] (lit "n='why' c=ff0000]]") _ []); [reflexivity| |constructor].
      apply (os_more ex_co true false [] (lit "n='why'") _ (lit " ") (lit "c=ff0000]]")); [reflexivity|exact ex_note_text|exact ex_sep|].
      apply (os_last ex_co true false [] (lit "c=ff0000") _ []); [reflexivity|exact ex_color_text|reflexivity].
    + split; [reflexivity|]. split; [constructor|split; intros [r H]; discriminate H].
    + split; [right; reflexivity|cbn; lia].
Qed.
Example C93_nonvacuous :
  load_source ex_co (lit ex_styled) = Ok (ex_load ex_styled) /\ pr_required (ex_load ex_styled) = []
  /\ restyled_file ex_co (lit ex_styled) (lit ex_unstyled)
  /\ (forall t, In t [ex_styled; ex_unstyled] -> exists F', yields (ex_E 5) true [] "main" (ex_one t) (Ok [[lit "a"; lit "=(2 + 1)"]; [lit "a"; lit "=(2 + 1)"]]) F')
  /\ ~ alike_sheet (pr_sheet (ex_load ex_styled)) (pr_sheet (ex_load ex_unstyled)).
Proof.
  split; [vm_compute; reflexivity|]. split; [vm_compute; reflexivity|]. split; [exact ex_restyled|]. split.
  - intros t [<-|[<-|[]]]; eexists; apply (ex_run_yields _ _ _ _ _ false [["main"]]%string); vm_compute; reflexivity.
  - intros [_ H]. assert (X : forall l l', Forall2 alike_row l l' -> map row_options l = map row_options l').
    { clear. intros l l' H. induction H as [|r r' l l' H _ IH]; [reflexivity|]. cbn [map]. f_equal; [exact (proj1 H)|exact IH]. }
    apply X in H. apply (f_equal (map text_formats)) in H. revert H. vm_compute. discriminate.
Qed.
(** Names are not formats: without its name the cell is no longer what other cells mean by it. *)
Theorem C93_names_refuted :
  (exists F, yields (ex_E 5) true [] "main" (ex_one ("[[var=x]]a,=x")) (Ok [[lit "a"; lit "=A1"]]) F)
  /\ (exists F, yields (ex_E 5) true [] "main" (ex_one ("a,=x")) (Ok [[lit "a"; lit "=x"]]) F).
Proof. split; eexists; apply (ex_run_yields _ _ _ _ _ false [["main"]]%string); vm_compute; reflexivity. Qed.
Print Assumptions C93_names_refuted.
