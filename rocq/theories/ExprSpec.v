(** What expr and expr~ should do, independently of the parser and of the code generator. *)
From Verif Require Export ExprModel ArgsSpec.
From Coq Require Import String List.
Import ListNotations.
Local Open Scope list_scope.
Local Open Scope Z_scope.

(** ** How expressions are written *)
(** C's binary operators, loosest first. *)
Definition c_levels : list (list text) :=
  [[T "||"]; [T "&&"]; [T "|"]; [T "^"]; [T "&"]; [T "=="; T "!="]; [T "<"; T "<="; T ">"; T ">="];
   [T "<<"; T ">>"]; [T "+"; T "-"]; [T "*"; T "/"; T "%"]].
(** The level of the comparisons. *)
Definition CMP : nat := 6.
(** Below the binary levels: unary operators, then primaries. *)
Definition UNARY : nat := 10.
Definition PRIMARY : nat := 11.
Definition unary_operators : list text := [T "-"; T "~"; T "!"].
(** The functions of Pd's expr that heavy documents. *)
Definition functions : list text :=
  map T ["abs"; "acos"; "acosh"; "asin"; "asinh"; "atan"; "atan2"; "atanh"; "cbrt"; "ceil"; "copysign";
         "cos"; "cosh"; "erf"; "erfc"; "exp"; "expm1"; "fact"; "finite"; "float"; "floor"; "fmod";
         "if"; "imodf"; "int"; "isinf"; "isnan"; "ldexp"; "ln"; "log"; "log10"; "log1p"; "max"; "min";
         "modf"; "pow"; "remainder"; "rint"; "round"; "nearbyint"; "sin"; "sinh"; "sqrt"; "tan"; "tanh"]%string.
Definition blank (s : text) : Prop := Forall (fun c => c = 32 \/ c = 9 \/ c = 10 \/ c = 13) s.
Definition digits (d : text) : Prop := d <> [] /\ Forall (fun c => 48 <= c <= 57) d.
(** [$], a type letter, a number. *)
Definition variable (v : text) : Prop :=
  exists t d, v = DOLLAR :: t :: d /\ In t [102; 105; 115; 118] /\ digits d.
Definition COMMA : text := [92; 44].     (* a comma in a Pd file is escaped *)

(** [writes k e s]: [s] is a way of writing [e] as an expression of level [k]: any blanks between tokens,
    any redundant parentheses, binary operators left associative - except that a comparison's operands are
    not bare comparisons. *)
Inductive writes : nat -> ast -> text -> Prop :=
| W_int b d : blank b -> digits d -> writes PRIMARY (Num_i d) (b ++ d)
| W_float b d d' : blank b -> digits d -> digits d' -> writes PRIMARY (Num_f (d ++ T "." ++ d')) (b ++ d ++ T "." ++ d')
| W_var b v : blank b -> variable v -> writes PRIMARY (Var v) (b ++ v)
| W_group b b' e s : blank b -> blank b' -> writes 0 e s -> writes PRIMARY e (b ++ T "(" ++ s ++ b' ++ T ")")
| W_func b b' f args s : blank b -> blank b' -> In f functions -> (length args <= 3)%nat -> writes_args args s ->
    writes PRIMARY (Node f args) (b ++ f ++ T "(" ++ s ++ b' ++ T ")")
| W_unary b op e s : blank b -> In op unary_operators -> writes UNARY e s -> writes UNARY (Node op [e]) (b ++ op ++ s)
| W_binary k b op ops e1 s1 e2 s2 : nth_error c_levels k = Some ops -> In op ops -> blank b ->
    writes (if (k =? CMP)%nat then S k else k) e1 s1 -> writes (S k) e2 s2 ->
    writes k (Node op [e1; e2]) (s1 ++ b ++ op ++ s2)
| W_tighter k e s : (k < PRIMARY)%nat -> writes (S k) e s -> writes k e s
with writes_args : list ast -> text -> Prop :=
| W_last e s : writes 0 e s -> writes_args [e] s
| W_more e s b l s' : writes 0 e s -> blank b -> writes_args l s' -> writes_args (e :: l) (s ++ b ++ COMMA ++ s').

(** ** What expr~ should compute *)
(** The vector function of HvMath.h behind each operator and function name. *)
Definition binary_function : list (text * text) :=
  map (fun p => (T (fst p), T (snd p)))
  [("||", "__hv_log_or_f"); ("&&", "__hv_log_and_f"); ("|", "__hv_bit_or_f"); ("^", "__hv_exc_or_f");
   ("&", "__hv_bit_and_f"); ("==", "__hv_eq_f"); ("!=", "__hv_neq_f"); ("<", "__hv_lt_f"); ("<=", "__hv_lte_f");
   (">", "__hv_gt_f"); (">=", "__hv_gte_f"); ("<<", "__hv_shl_f"); (">>", "__hv_shr_f"); ("+", "__hv_add_f");
   ("-", "__hv_sub_f"); ("*", "__hv_mul_f"); ("/", "__hv_div_f"); ("%", "__hv_modulo_f")]%string.
Definition unary_function : list (text * text) :=
  [(T "~", T "__hv_bit_not_f"); (T "!", T "__hv_not_f")].
(** Every function f is __hv_f_f, but for these. *)
Definition renamed_function : list (text * text) :=
  map (fun p => (T (fst p), T (snd p)))
  [("float", "__hv_cast_if_expr"); ("int", "__hv_cast_fi_expr"); ("imodf", "__hv_imod_f"); ("nearbyint", "__hv_rint_f")]%string.
Fixpoint assoc (l : list (text * text)) (k : text) : option text :=
  match l with [] => None | (k', v) :: l' => if text_eqb k k' then Some v else assoc l' k end.
Definition function_of (f : text) : text :=
  match assoc renamed_function f with Some g => g | None => T "__hv_" ++ f ++ T "_f" end.

Section Value.
Context {V : Type} (csem : text -> list V -> V) (const : bool -> text -> V) (input : Z -> V).
Definition apply (op : text) (vs : list V) : V :=
  match vs with
  | [v] => if text_eqb op (T "-") then csem (T "__hv_sub_f") [const true (T "0.0f"); v]     (* 0 - v *)
           else match assoc unary_function op with Some g => csem g vs | None => csem (function_of op) vs end
  | _ => match assoc binary_function op with Some g => csem g vs | None => csem (function_of op) vs end
  end.
(** Inlets are numbered from 1. *)
Definition var_number (v : text) : Z := int_of (skipn 2 v).
Fixpoint value (e : ast) : V :=
  match e with
  | Num_i d => const false d
  | Num_f d => const true d
  | Var v => input (var_number v)
  | Node op args => apply op (map value args)
  end.
End Value.

(** Operators, functions and variables of an expression that expr~ accepts. *)
Definition known_op (op : text) (n : nat) : Prop :=
  (n = 1%nat /\ In op unary_operators) \/ (n = 2%nat /\ In op (concat c_levels)) \/ (1 <= n <= 3)%nat /\ In op functions.
Fixpoint supported (inlets : Z) (e : ast) : Prop :=
  match e with
  | Num_i _ | Num_f _ => True
  | Var v => variable v /\ In (nth 1 v 0) [118; 102] /\ 1 <= var_number v <= inlets
  | Node op args => known_op op (length args) /\ fold_right and True (map (supported inlets) args)
  end.

(** Vector buffers needed at the same time: an operand that is not a variable occupies one from the time it
    has been computed until its operator has run; operands are computed from left to right. *)
Definition occupies (e : ast) : nat := match e with Var _ => 0 | _ => 1 end.
Fixpoint args_need (l : list (nat * nat)) (held : nat) : nat :=       (* (need, occupies) of each operand *)
  match l with [] => 0 | (n, o) :: l' => Nat.max (held + n) (args_need l' (held + o)) end.
Definition is_minus (op : text) (args : list ast) : bool := text_eqb op (T "-") && (length args =? 1)%nat.
Fixpoint need (e : ast) : nat :=
  match e with
  | Num_i _ | Num_f _ => 1
  | Var _ => 0
  | Node op args =>
    let ops := (if is_minus op args then [(1, 1)] else []) ++ map (fun a => (need a, occupies a)) args in
    Nat.max (args_need ops 0) (list_sum (map snd ops) + 1)
  end%nat.
(** At the root the result goes to the outlet. *)
Definition buffers_needed (e : ast) : nat :=
  match e with
  | Node op args => args_need ((if is_minus op args then [(1, 1)]%nat else []) ++ map (fun a => (need a, occupies a)) args) 0
  | _ => 0
  end.

(** Python's set.pop returns some element. *)
Definition valid_pick (pick : nat -> list nat -> nat) : Prop := forall n l, l <> [] -> In (pick n l) l.
(** Buffers that the code mentions. *)
Definition operand_buf (o : operand) : list nat := match o with OBuf b => [b] | _ => [] end.
Definition line_bufs (l : cline) : list nat :=
  match l with CLoad _ b _ => [b] | CCall _ os d => operand_buf d ++ flat_map operand_buf os end.

(** ** Control expr *)
(** A text with variables: literals without [$], and variables (without their [$]) followed by something
    that is not a digit.  [Verif.ArgsSpec.render [DOLLAR]] writes it. *)
Fixpoint cut_ok (ts : list token) : Prop :=
  match ts with
  | [] => True
  | Lit s :: ts' => plain s /\ cut_ok ts'
  | Ref r :: ts' =>
    (exists t d, r = t :: d /\ In t [102; 105] /\ digits d /\ 1 <= int_of d) /\     (* f or i, and a number from 1 *)
    match render [DOLLAR] ts' with c :: _ => ~ (48 <= c <= 57) | [] => True end /\ cut_ok ts'
  end.
(** The C text of a variable: the argument of its number, with its type. *)
Definition c_text (r c : text) : Prop :=
  exists t d n, r = t :: d /\ digits n /\ int_of n = int_of d - 1 /\
    c = T "((" ++ (if t =? 102 then T "float" else T "int") ++ T ")(args[" ++ n ++ T "]))".
