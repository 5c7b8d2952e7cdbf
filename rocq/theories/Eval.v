(** * Eval: model of src/ast/references.rs and src/ast/eval.rs.

    HashMap/HashSet iteration order is arbitrary and may differ from run to run. The model takes
    it as a parameter: [ord (2 * k) l] is the order in which round [k] iterates the variables [l],
    [ord (2 * k + 1) l] the functions [l]; theorems quantify over every [ord] that permutes its
    argument. *)
From Verif Require Import Base Csvp Ast.

(** references.rs 8-12: the two sets *)
Record references := { ref_functions : list str; ref_variables : list str }.
Definition no_references : references := {| ref_functions := []; ref_variables := [] |}.
(** references.rs 15-17 *)
Definition refs_is_empty (r : references) : bool :=
  match ref_functions r, ref_variables r with [], [] => true | _, _ => false end.
(** set equality (#[derive(PartialEq)] on HashSets, references.rs 8) *)
Definition set_eqb (a b : list str) : bool :=
  forallb (fun x => str_in x b) a && forallb (fun x => str_in x a) b.
Definition refs_eqb (a b : references) : bool :=
  set_eqb (ref_functions a) (ref_functions b) && set_eqb (ref_variables a) (ref_variables b).

(** references.rs 19-56 [extract_dfs] *)
Fixpoint extract_dfs (sc : scope) (n : node) (acc : references) : references :=
  match n with
  | NCall args name =>
      let acc1 := if has_key name (functions sc)
                  then {| ref_functions := set_insert name (ref_functions acc); ref_variables := ref_variables acc |}
                  else acc in
      (fix go (l : list node) (acc : references) :=
         match l with [] => acc | x :: r => go r (extract_dfs sc x acc) end) args acc1
  | NFn _ body _ => extract_dfs sc body acc
  | NInfix l _ r => extract_dfs sc r (extract_dfs sc l acc)
  | NRef r => if has_key r (variables sc)
              then {| ref_functions := ref_functions acc; ref_variables := set_insert r (ref_variables acc) |}
              else acc
  | NVar _ (VAst a) => extract_dfs sc a acc
  | _ => acc
  end.
(** references.rs 62-66 *)
Definition extract_references (sc : scope) (n : node) : references := extract_dfs sc n no_references.

(** eval.rs 181-225 [replace_variable] *)
Fixpoint replace_variable (x : str) (v : node) (n : node) : node :=
  match n with
  | NCall args name =>
      NCall ((fix go l := match l with [] => [] | a :: r => replace_variable x v a :: go r end) args) name
  | NFn args body name => NFn args (replace_variable x v body) name
  | NInfix l op r => NInfix (replace_variable x v l) op (replace_variable x v r)
  | NRef r => if str_eqb x r then v else n
  | NVar name (VAst a) => NVar name (VAst (replace_variable x v a))
  | _ => n
  end.

(** EvalError, src/error/eval_error.rs: only that it is an error matters (the message names the
    function and the two numbers). *)
Record eval_error := { ee_function : node; ee_expected : nat; ee_received : nat }.

(** eval.rs 124-130: the parameters one after the other *)
Fixpoint replace_params (params : list str) (args : list node) (body : node) : node :=
  match params, args with
  | p :: ps, a :: rest => replace_params ps rest (replace_variable p a body)
  | _, _ => body
  end.

(** eval.rs 91-178 [call_function] *)
Fixpoint call_function (f : str) (fn : node) (n : node) : outcome eval_error node :=
  match n with
  | NCall args name =>
      if str_eqb name f then
        match fn with
        | NFn params body _ =>
            if length args =? length params
            then Ok (replace_params params args body)
            else Err {| ee_function := fn; ee_expected := length args; ee_received := length params |}
        | other => Ok other
        end
      else
        do args' <- (fix go (l : list node) : outcome eval_error (list node) :=
          match l with
          | [] => Ok []
          | a :: r => do a' <- call_function f fn a; do r' <- go r; Ok (a' :: r')
          end) args;
        Ok (NCall args' name)
  | NInfix l op r =>
      do l' <- call_function f fn l; do r' <- call_function f fn r; Ok (NInfix l' op r')
  | NVar name (VAst a) => do a' <- call_function f fn a; Ok (NVar name (VAst a'))
  | _ => Ok n
  end.

(** eval.rs 62-75 [eval_functions], iterating [fs] in this order *)
Fixpoint eval_functions (sc : scope) (fs : list str) (n : node) : outcome eval_error node :=
  match fs with
  | [] => Ok n
  | f :: r =>
      match assoc f (functions sc) with
      | Some fn => do n' <- call_function f fn n; eval_functions sc r n'
      | None => eval_functions sc r n
      end
  end.

(** eval.rs 46-50: the value a variable name is replaced with *)
Definition variable_node (sc : scope) (pos : option address) (x : str) : option (outcome unit node) :=
  match assoc x (variables sc) with
  | Some (NVar _ v) => Some (into_ast v pos)
  | Some n => Some (Ok n)
  | None => None
  end.
(** eval.rs 39-57 [resolve_variables]: a panic in [into_ast] is a panic of the whole call *)
Fixpoint resolve_variables (sc : scope) (pos : option address) (xs : list str)
  : outcome eval_error (list (str * node)) :=
  match xs with
  | [] => Ok []
  | x :: r =>
      match variable_node sc pos x with
      | Some (Ok v) => do m <- resolve_variables sc pos r; Ok ((x, v) :: m)
      | Some _ => Panic
      | None => resolve_variables sc pos r
      end
  end.
(** eval.rs 79-86 [eval_variables], iterating the map in this order *)
Fixpoint eval_variables (m : list (str * node)) (n : node) : node :=
  match m with
  | [] => n
  | (x, v) :: r => eval_variables r (replace_variable x v n)
  end.

(** eval.rs 25-31: one round, with the two iteration orders *)
Definition eval_round (sc : scope) (pos : option address) (vs fs : list str) (n : node)
  : outcome eval_error node :=
  do m <- resolve_variables sc pos vs;
  eval_functions sc fs (eval_variables m n).

(** eval.rs 14-35 [eval]; fuel bounds the number of rounds, [k] is the round. *)
Fixpoint eval_loop (fuel : nat) (ord : nat -> list str -> list str) (k : nat)
  (sc : scope) (pos : option address) (last : references) (n : node) : outcome eval_error node :=
  match fuel with
  | 0 => NoFuel
  | S f =>
      let refs := extract_references sc n in
      if refs_is_empty refs || refs_eqb refs last then Ok n
      else
        do n' <- eval_round sc pos (ord (2 * k) (ref_variables refs)) (ord (2 * k + 1) (ref_functions refs)) n;
        eval_loop f ord (S k) sc pos refs n'
  end.
Definition ast_eval (fuel : nat) (ord : nat -> list str -> list str) (sc : scope)
  (pos : option address) (n : node) : outcome eval_error node :=
  eval_loop fuel ord 0 sc pos no_references n.
