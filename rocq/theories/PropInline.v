(** * PropInline: a name is short for what it is defined as, a call for the body of its function (C91). *)
From Verif Require Import Base BaseProofs Csvp SourceCode Ast AstProofs Eval EvalSpec EvalProofs AstParser Options CellParser Sheet SheetSpec SheetProofs SheetProofs2 ParsedPlain ModuleProofs ModuleProofs3 Loader LoaderSpec CompileSpec SameSpec
  PropCell PropSheet PropVariables PropLoader PropModules PropCompile ProgramSpec ProgramProofs PropProgram InlineSpec InlineProofs InlineProofs2.

(** A formula means the same with definitions written out in it, also if the definitions themselves have been written out. *)
Theorem C91_same_meaning : forall p p' args here n n' m, plain_defs (pr_scope p) -> inlined p p' -> written_out p [] n n' -> means p args here n m -> means p' args here n' m.
Proof. intros p p' args here n n' m D I W M. eapply means_inlined; eassumption. Qed.
Print Assumptions C91_same_meaning.

Lemma rows_same p p' args out out' : plain_defs (pr_scope p) -> inlined p p' -> output_rows p (meant p args) out -> output_rows p' (meant p' args) out' -> out' = out.
Proof.
  intros D I [L H] [L' H']. pose proof (in_room p p' I) as Rm. pose proof (in_total p p' I) as Tt.
  apply nth_error_ext. intro j. destruct (Nat.lt_ge_cases j (total (room (sheet_rows (pr_sheet p))) (sheet_rows (pr_sheet p)))) as [Lt|Ge].
  - destruct (blocks_cover _ _ _ Lt) as [i [r [k [Hr [Hk ->]]]]]. destruct (H i r k Hr Hk) as [ts [Ht F]]. destruct (Forall2_nth_r _ _ _ (proj1 I) _ _ Hr) as [r' [Hr' [If [_ [_ Ic]]]]].
    assert (Hk' : k < copies (room (sheet_rows (pr_sheet p'))) r') by (rewrite Rm; unfold copies; rewrite If; exact Hk).
    destruct (H' i r' k Hr' Hk') as [ts' [Ht' F']]. rewrite (in_first p p' I) in Ht', F'. unfold first_row in *. rewrite Ht, Ht'. f_equal.
    clear -D I Ic F F'. revert ts ts' F F'. induction Ic as [|c c' l l' Hc _ IH]; intros ts ts' F F'; inversion F as [|? t ? ts1 Mt Ft]; inversion F' as [|? t' ? ts1' Mt' Ft']; subst; [reflexivity|]. f_equal; [|apply IH; assumption].
    destruct Hc as [_ [_ M]]. unfold meant in Mt, Mt'. destruct (cell_ast c) as [n|], (cell_ast c') as [n'|]; try contradiction; [|congruence].
    destruct Mt as [m [Mm [_ ->]]], Mt' as [m' [Mm' [_ ->]]]. f_equal. f_equal. eapply C80_one_meaning; [exact Mm'|]. eapply means_inlined; eassumption.
  - assert (N : nth_error out j = None) by (apply nth_error_None; lia). assert (N' : nth_error out' j = None) by (apply nth_error_None; rewrite L', Rm, Tt; exact Ge). congruence.
Qed.
(** If a file satisfies the conditions under which its meaning is written (C80: no imports, no circular definitions, no nested calls, no
    capture), then every file in which names have been written out as their definitions and calls as the bodies of their functions - in any
    cells and definitions, at any places, as far as one likes - compiles, and to the same output. *)
Theorem C91_inline_partial : forall E use_cache kvs args name F F' text text' time time' p p' bound1 bound2,
  sources F [name] = Some (text, time) -> no_object F [name] \/ older_object F [name] ->
  sources F' [name] = Some (text', time') -> no_object F' [name] \/ older_object F' [name] ->
  (use_cache = true -> e_writable E [name] = true) -> (forall a, is_order (ev_order (e_sheet E) a)) -> bound1 + bound2 < ev_fuel (e_sheet E) ->
  load_source (e_co E) text = Ok p -> pr_required p = [] -> load_source (e_co E) text' = Ok p' -> pr_required p' = [] ->
  parse_key_values (co_oracle (e_co E)) kvs [] = Ok args ->
  good_fills (sheet_rows (pr_sheet p)) -> uncaptured_names p args -> no_circles p args bound1 -> flat_calls p args bound2 ->
  inlined p p' ->
  (exists r, compiles E use_cache args name F' r)
  /\ forall r r', compiles E use_cache args name F r -> compiles E use_cache args name F' r' ->
     exists m m', fst r = Ok m /\ fst r' = Ok m' /\ sheet_texts (module_sheet m') = sheet_texts (module_sheet m).
Proof.
  intros E uc kvs args name F F' text text' time time' p p' b1 b2 So No So' No' W Or Fu Ld Rq Ld' Rq' K G U C Fl I.
  destruct (C80_meant_partial E uc kvs args name F text time p b1 b2 So No W Or Fu Ld Rq K G U C Fl) as [_ A].
  destruct (C80_meant_partial E uc kvs args name F' text' time' p' b1 b2 So' No' W Or Fu Ld' Rq' K (in_good_fills p p' I G) (in_uncaptured p p' args I U) (in_no_circles p p' args I b1 b2 C Fl) (in_flat_calls p p' args I b2 Fl)) as [Ex A'].
  split; [exact Ex|]. intros r r' Hr Hr'. destruct (A r Hr) as [m [Em Om]]. destruct (A' r' Hr') as [m' [Em' Om']]. exists m, m'. split; [exact Em|]. split; [exact Em'|].
  pose proof (load_plain _ _ _ Ld) as [D _]. exact (rows_same p p' args _ _ D I Om Om').
Qed.
Print Assumptions C91_inline_partial.

(** ** The conditions are met *)
(** the program of C80, and the same with [twice], the call of [vat] and a use of [price] written out *)
Definition ex_written_source : string := "price := 3
twice := 3 * 2
fn vat(x, each) x * rate + each
---
![[fill=3]][[var=n]],=n * rate + 3,=n * (price * 2)
last,=SUM(n)
".
Definition ex_written_files : fs := ex_files [(["main"%string], ex_written_source, 1)].
Definition ex_w : program := Eval vm_compute in ex_program (lit ex_written_source).
Lemma ex_price ps : ~ In (lit "price") ps -> written_out ex_p ps (NRef (lit "price")) (NInt false None 3).
Proof. intro N. eapply wo_name; [reflexivity|exact N|intros y _ []|apply wo_same]. Qed.
Lemma ex_inlined : inlined ex_p ex_w.
Proof.
  split; [|split].
  - constructor; [|constructor; [|constructor]].
    + split; [reflexivity|]. split; [reflexivity|]. split; [reflexivity|]. constructor; [|constructor; [|constructor; [|constructor]]].
      * split; [reflexivity|]. split; [reflexivity|]. reflexivity.
      * split; [reflexivity|]. split; [reflexivity|]. cbn [cell_ast]. eapply wo_call; [reflexivity|reflexivity|intros y _ _ []|].
        cbn -[lit]. apply wo_infix; [apply wo_same|]. apply ex_price. intros [].
      * split; [reflexivity|]. split; [reflexivity|]. cbn [cell_ast]. apply wo_infix; [apply wo_same|]. eapply wo_name; [reflexivity|intros []|intros y []|apply wo_same].
    + split; [reflexivity|]. split; [reflexivity|]. split; [reflexivity|]. constructor; [|constructor; [|constructor]].
      * split; [reflexivity|]. split; [reflexivity|]. reflexivity.
      * split; [reflexivity|]. split; [reflexivity|]. cbn [cell_ast]. apply wo_same.
  - intro x. unfold ex_p, ex_w. cbn [variables pr_scope assoc].
    repeat (match goal with |- context [str_eqb x ?s] => destruct (str_eqb x s) end; [try apply wo_same; try (apply wo_infix; [apply ex_price; intros []|apply wo_same])|]). exact I.
  - intro f. unfold ex_p, ex_w. cbn [functions pr_scope assoc].
    match goal with |- context [str_eqb f ?s] => destruct (str_eqb f s) end; [|exact I]. split; [reflexivity|apply wo_same].
Qed.
Example C91_nonvacuous : exists r', compiles (ex_E 5) true ex_args (lit "main") ex_written_files r'
  /\ exists m', fst r' = Ok m' /\ sheet_texts (module_sheet m') = map (map lit)
     [[""; "=((A1 * 20) + 3)"; "=(A1 * (3 * 2))"]; [""; "=((A2 * 20) + 3)"; "=(A2 * (3 * 2))"]; [""; "=((A3 * 20) + 3)"; "=(A3 * (3 * 2))"]; ["last"; "=SUM(A1:A3)"]]%string.
Proof.
  destruct C80_nonvacuous as (m & F1 & R & No & So & Ld & Rq & Kv & G & Nc & Ci & Fl & T).
  destruct (C91_inline_partial (ex_E 5) true [lit "rate=20"] ex_args (lit "main") ex_meaning_files ex_written_files (lit ex_meaning_source) (lit ex_written_source) 1 1 ex_p ex_w 2 1) as [[r' R'] Al]; auto.
  - intros ad k l. apply Permutation.Permutation_refl.
  - cbn. lia.
  - exact ex_inlined.
  - exists r'. split; [exact R'|]. destruct (Al _ _ R R') as [m1 [m' [Q [Q' T']]]]. exists m'. split; [exact Q'|]. cbn [fst] in Q. injection Q as <-. rewrite T'. exact T.
Qed.

(** ** The condition on nested calls is needed: a name in a call, and what it is defined as *)
Definition ex_nest (cell : string) : string := ("fn f(x) x + 1" ++ nl ++ "one := f(1)" ++ nl ++ "---" ++ nl ++ cell ++ nl)%string.
Definition ex_n1 : program := Eval vm_compute in ex_program (lit (ex_nest "=f(one)")).
Definition ex_n2 : program := Eval vm_compute in ex_program (lit (ex_nest "=f(f(1))")).
Theorem C91_nested_refuted : load_source ex_co (lit (ex_nest "=f(one)")) = Ok ex_n1 /\ load_source ex_co (lit (ex_nest "=f(f(1))")) = Ok ex_n2 /\ inlined ex_n1 ex_n2
  /\ exists F F',
     yields (ex_E 5) true [] "main" (ex_files [(["main"]%string, ex_nest "=f(one)", 1)]) (Ok [[lit "=((1 + 1) + 1)"]]) F
  /\ yields (ex_E 5) true [] "main" (ex_files [(["main"]%string, ex_nest "=f(f(1))", 1)]) (Ok [[lit "=(f(1) + 1)"]]) F'.
Proof.
  split; [vm_compute; reflexivity|]. split; [vm_compute; reflexivity|]. split.
  - split; [|split].
    + constructor; [|constructor]. split; [reflexivity|]. split; [reflexivity|]. split; [reflexivity|]. constructor; [|constructor].
      split; [reflexivity|]. split; [reflexivity|]. cbn [cell_ast]. apply wo_args. constructor; [|constructor]. eapply wo_name; [reflexivity|intros []|intros y []|apply wo_same].
    + intro x. unfold ex_n1, ex_n2. cbn [variables pr_scope assoc]. match goal with |- context [str_eqb x ?s] => destruct (str_eqb x s) end; [apply wo_same|exact I].
    + intro x. unfold ex_n1, ex_n2. cbn [functions pr_scope assoc]. match goal with |- context [str_eqb x ?s] => destruct (str_eqb x s) end; [|exact I]. split; [reflexivity|apply wo_same].
  - eexists. eexists. split; apply (ex_run_yields (ex_E 5) true [] "main"%string _ false [["main"]]%string); vm_compute; reflexivity.
Qed.
Print Assumptions C91_nested_refuted.
