(** * EvalSpec: what a formula means in a scope, independently of how eval.rs computes it. *)
From Coq Require Import Permutation.
From Verif Require Import Base Csvp Ast Eval.

(** ** Names in a formula *)
(** names in reference position *)
Fixpoint ref_names (n : node) : list str :=
  match n with
  | NRef r => [r]
  | NCall args _ => (fix go l := match l with [] => [] | x :: r => ref_names x ++ go r end) args
  | NInfix l _ r => ref_names l ++ ref_names r
  | NFn _ b _ => ref_names b
  | NVar _ (VAst a) => ref_names a
  | _ => []
  end.
(** names in call position *)
Fixpoint call_names (n : node) : list str :=
  match n with
  | NCall args f => f :: (fix go l := match l with [] => [] | x :: r => call_names x ++ go r end) args
  | NInfix l _ r => call_names l ++ call_names r
  | NFn _ b _ => call_names b
  | NVar _ (VAst a) => call_names a
  | _ => []
  end.
(** a formula: no definitions inside *)
Fixpoint plain (n : node) : Prop :=
  match n with
  | NFn _ _ _ | NVar _ _ => False
  | NCall args _ => (fix go l := match l with [] => True | x :: r => plain x /\ go r end) args
  | NInfix l _ r => plain l /\ plain r
  | _ => True
  end.
(** nothing in the formula is defined in the scope *)
Definition nothing_known (sc : scope) (n : node) : Prop :=
  (forall x, In x (ref_names n) -> assoc x (variables sc) = None)
  /\ (forall f, In f (call_names n) -> assoc f (functions sc) = None).

(** ** Simultaneous substitution *)
Fixpoint subst (s : list (str * node)) (n : node) : node :=
  match n with
  | NRef r => match assoc r s with Some v => v | None => n end
  | NCall args f => NCall (map (subst s) args) f
  | NInfix l op r => NInfix (subst s l) op (subst s r)
  | NFn ps b name => NFn ps (subst s b) name
  | NVar name (VAst a) => NVar name (VAst (subst s a))
  | _ => n
  end.

(** ** Meaning: [expands n m] -- replacing variables by their values and calls of defined functions
    by their bodies with the arguments for the parameters, until nothing defined is left, turns
    [n] into [m]. *)
Definition leaf (n : node) : bool :=
  match n with NBool _ | NDate _ | NFloat _ _ _ | NInt _ _ _ | NText _ => true | _ => false end.
Inductive expands (sc : scope) (pos : option address) : node -> node -> Prop :=
| x_leaf n : leaf n = true -> expands sc pos n n
| x_variable x v m :
    variable_node sc pos x = Some (Ok v) -> expands sc pos v m -> expands sc pos (NRef x) m
| x_name x : assoc x (variables sc) = None -> expands sc pos (NRef x) (NRef x)
| x_infix l l' op r r' :
    expands sc pos l l' -> expands sc pos r r' -> expands sc pos (NInfix l op r) (NInfix l' op r')
| x_call f args ps body name m :
    assoc f (functions sc) = Some (NFn ps body name) -> length args = length ps ->
    expands sc pos (subst (combine ps args) body) m -> expands sc pos (NCall args f) m
| x_other_call f args ms :
    assoc f (functions sc) = None -> Forall2 (expands sc pos) args ms ->
    expands sc pos (NCall args f) (NCall ms f).

(** ** Well-formed scopes *)
(** Every defined function is a function definition with a plain body, every variable has a plain value. *)
Definition plain_scope (sc : scope) (pos : option address) : Prop :=
  (forall x r, variable_node sc pos x = Some r -> exists v, r = Ok v /\ plain v)
  /\ (forall f g, assoc f (functions sc) = Some g -> exists ps body name, g = NFn ps body name /\ plain body).
(** [p] is the second or a later parameter of a defined function. *)
Definition later_param (sc : scope) (p : str) : Prop :=
  exists f ps body name, assoc f (functions sc) = Some (NFn ps body name) /\ In p (tl ps).
(** no reference (outside [ps]) to a name that is also a later parameter of some function *)
Definition uncaptured (sc : scope) (ps : list str) (n : node) : Prop :=
  forall x, In x (ref_names n) -> ~ In x ps -> ~ later_param sc x.
Definition hygienic (sc : scope) (pos : option address) : Prop :=
  (forall x v, variable_node sc pos x = Some (Ok v) -> uncaptured sc [] v)
  /\ (forall f ps body name, assoc f (functions sc) = Some (NFn ps body name) -> uncaptured sc ps body).

(** No recursion: definitions only use names of lower rank. *)
Definition below (sc : scope) (rv rf : str -> nat) (ps : list str) (k : nat) (n : node) : Prop :=
  (forall x, In x (ref_names n) -> ~ In x ps -> assoc x (variables sc) <> None -> rv x < k)
  /\ (forall f, In f (call_names n) -> assoc f (functions sc) <> None -> rf f < k).
Definition ranked (sc : scope) (pos : option address) (rv rf : str -> nat) : Prop :=
  (forall x v, variable_node sc pos x = Some (Ok v) -> below sc rv rf [] (rv x) v)
  /\ (forall f ps body name, assoc f (functions sc) = Some (NFn ps body name) -> below sc rv rf ps (rf f) body).

(** Every call of a defined function has the right number of arguments. *)
Fixpoint arity_ok (sc : scope) (n : node) : Prop :=
  match n with
  | NCall args f =>
      (forall ps body name, assoc f (functions sc) = Some (NFn ps body name) -> length args = length ps)
      /\ (fix go l := match l with [] => True | x :: r => arity_ok sc x /\ go r end) args
  | NInfix l _ r => arity_ok sc l /\ arity_ok sc r
  | NFn _ b _ => arity_ok sc b
  | NVar _ (VAst a) => arity_ok sc a
  | _ => True
  end.
Definition arity_scope (sc : scope) (pos : option address) : Prop :=
  (forall x v, variable_node sc pos x = Some (Ok v) -> arity_ok sc v)
  /\ (forall f ps body name, assoc f (functions sc) = Some (NFn ps body name) -> arity_ok sc body).

(** ** Nested calls.
    [rf] ranks the functions; [bound f] limits what may be nested in the arguments of [f]: only calls
    of functions of rank below [bound f]. With [bound = fun _ => 0] no calls of defined functions are
    nested in arguments of defined functions at all.

    [calls_below ps j k n]: every defined function called in [n], directly or through its variables,
    has a rank below [k], given that the arguments for the parameters [ps] only contain calls of rank below [j]. *)
Inductive calls_below (sc : scope) (pos : option address) (rf : str -> nat) (ps : list str) (j k : nat) : node -> Prop :=
| cb n : (forall f, In f (call_names n) -> assoc f (functions sc) <> None -> rf f < k) ->
         (forall x v, In x (ref_names n) -> ~ In x ps -> variable_node sc pos x = Some (Ok v) ->
            calls_below sc pos rf [] 0 k v) ->
         (forall x, In x (ref_names n) -> In x ps -> j <= k) ->
         calls_below sc pos rf ps j k n.
Fixpoint nesting (sc : scope) (pos : option address) (rf bound : str -> nat) (ps : list str) (j : nat) (n : node) : Prop :=
  match n with
  | NCall args f =>
      (assoc f (functions sc) <> None -> Forall (calls_below sc pos rf ps j (bound f)) args)
      /\ (fix go l := match l with [] => True | x :: r => nesting sc pos rf bound ps j x /\ go r end) args
  | NInfix l _ r => nesting sc pos rf bound ps j l /\ nesting sc pos rf bound ps j r
  | _ => True
  end.
Definition nesting_scope (sc : scope) (pos : option address) (rf bound : str -> nat) : Prop :=
  (forall f, bound f <= rf f)
  /\ (forall x v, variable_node sc pos x = Some (Ok v) -> nesting sc pos rf bound [] 0 v)
  /\ (forall f ps body name, assoc f (functions sc) = Some (NFn ps body name) -> nesting sc pos rf bound ps (bound f) body).

(** every iteration order is possible *)
Definition is_order (ord : nat -> list str -> list str) : Prop :=
  forall k l, Permutation (ord k l) l.

(** a call of [f] with [k] arguments that is not inside an argument of a defined function *)
Inductive exposed (sc : scope) (f : str) (k : nat) : node -> Prop :=
| e_call args : length args = k -> exposed sc f k (NCall args f)
| e_left l op r : exposed sc f k l -> exposed sc f k (NInfix l op r)
| e_right l op r : exposed sc f k r -> exposed sc f k (NInfix l op r)
| e_arg args g a : assoc g (functions sc) = None -> In a args -> exposed sc f k a -> exposed sc f k (NCall args g).
