(** Model of expression objects:
    - the grammar, /repo/hvcc/generators/ir2c/expr/expr_arpeggio_grammar.py:28-103, read by Arpeggio's
      parsing expression semantics (ordered choice, greedy repetition with backtracking, white space
      skipped before every terminal, no end-of-input check: the EOF in l.28 is commented out);
    - the syntax tree, expr_arpeggio_parser.py:42-105 (here built by the parser itself);
    - the C code of expr~, expr_c_writer.py:22-163, and how it is called, SignalExpr.py:52-110;
    - variables of control expr, ControlExpr.py:94-132, and its messages, static/HvControlExpr.c.
    Texts are lists of character codes. *)
From Verif Require Export ArgsModel.
From Coq Require Import String Ascii List.
Import ListNotations.
Local Open Scope list_scope.
Local Open Scope Z_scope.

(** A text literal. *)
Definition T (s : string) : text := map (fun a => Z.of_nat (nat_of_ascii a)) (list_ascii_of_string s).
Arguments T s%string.

(** ** Parser *)
(** ParserPython's default white space: tab, newline, return, space. *)
Definition is_ws (c : Z) : bool := (c =? 32) || (c =? 9) || (c =? 10) || (c =? 13).
Fixpoint skipws (s : text) : text := match s with c :: s' => if is_ws c then skipws s' else s | [] => [] end.
(** StrMatch: skip white space, then the literal. *)
Definition lit (t s : text) : option text :=
  let s := skipws s in if starts t s then Some (skipn (length t) s) else None.
(** Ordered choice of literals: which one, and the rest. *)
Fixpoint choice (ts : list text) (s : text) : option (text * text) :=
  match ts with
  | [] => None
  | t :: ts' => match lit t s with Some r => Some (t, r) | None => choice ts' s end
  end.
(** \d+ (ASCII digits) *)
Fixpoint span_digits (s : text) : text * text :=
  match s with
  | c :: s' => if is_digit c then let (d, r) := span_digits s' in (c :: d, r) else ([], s)
  | [] => ([], [])
  end.

(** ExprNode, expr_arpeggio_parser.py:25-34. *)
Inductive ast :=
| Num_i (d : text)
| Num_f (d : text)
| Var (v : text)                          (* with the $ and the type letter *)
| Node (op : text) (args : list ast).     (* "binary", "unary" and "func" nodes *)

(** l.30-40: the binary operators from the loosest level (lor) to the tightest (factor). *)
Definition grammar_levels : list (list text) :=
  [[T "||"]; [T "&&"]; [T "|"]; [T "^"]; [T "&"]; [T "=="; T "!="]; [T "<="; T ">="]; [T "<"; T ">"];
   [T "<<"; T ">>"]; [T "+"; T "-"]; [T "*"; T "/"; T "%"]].
(** l.41 *)
Definition grammar_unary : list text := [T "-"; T "~"; T "!"].
(** l.53-103: regex \bname(?=\(): the name, directly followed by "(".  (The parser only looks for a
    function behind an operator, a parenthesis, white space or the start, where \b always holds.) *)
Definition grammar_functions : list text :=
  map T ["abs"; "acos"; "acosh"; "asin"; "asinh"; "atan"; "atan2"; "atanh"; "cbrt"; "ceil"; "copysign";
         "cos"; "cosh"; "drem"; "erf"; "erfc"; "exp"; "expm1"; "fact"; "finite"; "float"; "floor"; "fmod";
         "if"; "imodf"; "int"; "isinf"; "isnan"; "ldexp"; "ln"; "log"; "log10"; "log1p"; "max"; "min";
         "modf"; "pow"; "remainder"; "rint"; "round"; "nearbyint"; "sin"; "sinh"; "sqrt"; "tan"; "tanh"]%string.
(** l.43, 51-52: number = [num_f, num_i]. *)
Definition number (s : text) : option (ast * text) :=
  match span_digits (skipws s) with
  | ([], _) => None
  | (d, r) =>
    match r with
    | c :: r' =>
      if c =? 46 then
        match span_digits r' with
        | ([], _) => Some (Num_i d, r)
        | (d', r'') => Some (Num_f (d ++ 46 :: d'), r'')
        end
      else Some (Num_i d, r)
    | [] => Some (Num_i d, r)
    end
  end.
(** l.44: \$[fisv]\d+ *)
Definition is_vtype (c : Z) : bool := (c =? 102) || (c =? 105) || (c =? 115) || (c =? 118).
Definition var (s : text) : option (ast * text) :=
  match skipws s with
  | a :: b :: r =>
    if (a =? DOLLAR) && is_vtype b then
      match span_digits r with ([], _) => None | (d, r') => Some (Var (a :: b :: d), r') end
    else None
  | _ => None
  end.
Fixpoint f_name_in (fs : list text) (s : text) : option (text * text) :=
  match fs with
  | [] => None
  | f :: fs' => if starts (f ++ [40]) s then Some (f, skipn (length f) s) else f_name_in fs' s
  end.
Definition f_name (s : text) : option (text * text) := f_name_in grammar_functions (skipws s).

(** The rules.  Outer [None]: out of fuel; inner [None]: NoMatch.  Levels 0..10 are the binary levels,
    11 is unary (l.41), 12 primary (l.42).  Rule none (l.29) repeats on a literal blank, which can never
    match because white space is skipped before it. *)
Fixpoint plevel (n k : nat) (s : text) {struct n} : option (option (ast * text)) :=
  match n with
  | O => None
  | S n =>
    match nth_error grammar_levels k with
    | Some _ =>
      match plevel n (S k) s with
      | Some (Some (a, s1)) => ploop n k a s1
      | r => r
      end
    | None =>
      if (k =? 11)%nat then
        match choice grammar_unary s with
        | Some (op, s1) =>
          match plevel n 11 s1 with
          | Some (Some (a, s2)) => Some (Some (Node op [a], s2))
          | Some None => plevel n 12 s
          | None => None
          end
        | None => plevel n 12 s
        end
      else
        match number s with
        | Some r => Some (Some r)
        | None =>
          match var s with
          | Some r => Some (Some r)
          | None =>
            match pfunc n s with
            | Some None => pgroup n s
            | r => r
            end
          end
        end
    end
  end
(** ZeroOrMore([ops], next level); expr_arpeggio_parser.py:86-103 folds to the left. *)
with ploop (n k : nat) (acc : ast) (s : text) {struct n} : option (option (ast * text)) :=
  match n with
  | O => None
  | S n =>
    match choice (nth k grammar_levels []) s with
    | None => Some (Some (acc, s))
    | Some (op, s1) =>
      match plevel n (S k) s1 with
      | None => None
      | Some None => Some (Some (acc, s))
      | Some (Some (b, s2)) => ploop n k (Node op [acc; b]) s2
      end
    end
  end
(** l.45-49: the three alternatives in order. *)
with pfunc (n : nat) (s : text) {struct n} : option (option (ast * text)) :=
  match n with
  | O => None
  | S n =>
    match f_name s with
    | None => Some None
    | Some (f, s1) =>
      match lit (T "(") s1 with
      | None => Some None
      | Some s2 =>
        let alt j := match pseq n j s2 with
                     | Some (Some (args, r)) => Some (Some (Node f args, r))
                     | Some None => Some None
                     | None => None end in
        match alt 0%nat with
        | Some None => match alt 1%nat with Some None => alt 2%nat | r => r end
        | r => r
        end
      end
    end
  end
(** expr, then [j] times "\," expr, then ")". *)
with pseq (n j : nat) (s : text) {struct n} : option (option (list ast * text)) :=
  match n with
  | O => None
  | S n =>
    match plevel n 0 s with
    | None => None
    | Some None => Some None
    | Some (Some (a, s1)) =>
      match j with
      | O => match lit (T ")") s1 with Some r => Some (Some ([a], r)) | None => Some None end
      | S j =>
        match lit [92; 44] s1 with
        | None => Some None
        | Some s2 =>
          match pseq n j s2 with
          | Some (Some (l, r)) => Some (Some (a :: l, r))
          | r => r
          end
        end
      end
    end
  end
(** l.50 *)
with pgroup (n : nat) (s : text) {struct n} : option (option (ast * text)) :=
  match n with
  | O => None
  | S n =>
    match lit (T "(") s with
    | None => Some None
    | Some s1 =>
      match plevel n 0 s1 with
      | Some (Some (a, s2)) => match lit (T ")") s2 with Some r => Some (Some (a, r)) | None => Some None end
      | r => r
      end
    end
  end.
(** ExprArpeggioParser.parse_to_ast: whatever is left over is dropped.  [Some None]: NoMatch is raised. *)
Definition parse_to_ast (n : nat) (s : text) : option (option ast) :=
  match plevel n 0 s with
  | Some (Some (a, _)) => Some (Some a)
  | Some None => Some None
  | None => None
  end.

(** ** Code of expr~ *)
(** ExprOpMap.op_map, expr_c_writer.py:180-253, with the "__" of get_hv_func_simd (l.260-261);
    None: KeyError. *)
Fixpoint op_lookup (l : list (string * string)) (s : text) : option text :=
  match l with
  | [] => None
  | (k, v) :: l' => if text_eqb (T k) s then Some (T "__" ++ T v) else op_lookup l' s
  end.
Definition op_map : list (string * string) :=
  [("~", "hv_bit_not_f"); ("!", "hv_not_f"); ("*", "hv_mul_f"); ("/", "hv_div_f"); ("%", "hv_modulo_f");
   ("+", "hv_add_f"); ("-", "hv_sub_f"); ("<", "hv_lt_f"); ("<=", "hv_lte_f"); (">", "hv_gt_f");
   (">=", "hv_gte_f"); ("<<", "hv_shl_f"); (">>", "hv_shr_f"); ("==", "hv_eq_f"); ("!=", "hv_neq_f");
   ("^", "hv_exc_or_f"); ("&", "hv_bit_and_f"); ("&&", "hv_log_and_f"); ("|", "hv_bit_or_f");
   ("||", "hv_log_or_f"); ("abs", "hv_abs_f"); ("acos", "hv_acos_f"); ("acosh", "hv_acosh_f");
   ("asin", "hv_asin_f"); ("asinh", "hv_asinh_f"); ("atan", "hv_atan_f"); ("atan2", "hv_atan2_f");
   ("atanh", "hv_atanh_f"); ("cbrt", "hv_cbrt_f"); ("ceil", "hv_ceil_f"); ("copysign", "hv_copysign_f");
   ("cos", "hv_cos_f"); ("cosh", "hv_cosh_f"); ("erf", "hv_erf_f"); ("erfc", "hv_erfc_f");
   ("exp", "hv_exp_f"); ("expm1", "hv_expm1_f"); ("fact", "hv_fact_f"); ("finite", "hv_finite_f");
   ("float", "hv_cast_if_expr"); ("floor", "hv_floor_f"); ("fmod", "hv_fmod_f"); ("if", "hv_if_f");
   ("imodf", "hv_imod_f"); ("int", "hv_cast_fi_expr"); ("isinf", "hv_isinf_f"); ("isnan", "hv_isnan_f");
   ("ldexp", "hv_ldexp_f"); ("ln", "hv_ln_f"); ("log", "hv_log_f"); ("log10", "hv_log10_f");
   ("log1p", "hv_log1p_f"); ("max", "hv_max_f"); ("min", "hv_min_f"); ("modf", "hv_modf_f");
   ("pow", "hv_pow_f"); ("remainder", "hv_remainder_f"); ("rint", "hv_rint_f"); ("round", "hv_round_f");
   ("nearbyint", "hv_rint_f"); ("sin", "hv_sin_f"); ("sinh", "hv_sinh_f"); ("sqrt", "hv_sqrt_f");
   ("tan", "hv_tan_f"); ("tanh", "hv_tanh_f"); ("_load_f", "hv_var_k_f"); ("_load_i", "hv_var_k_i")]%string.
Definition get_hv_func_simd (op : text) : option text := op_lookup op_map op.

(** The tree after _simd_bind_variables (l.98-114) and _simd_replace_constants (l.82-96): variables are
    positions in the input array, constants below the root are loads; a constant at the root stays bare. *)
Inductive tree :=
| TIn (i : Z)
| TRaw (d : text)
| TLoad (fl : bool) (d : text)            (* _load_f / _load_i *)
| TOp (op : text) (args : list tree).
(** _bind_var_node, l.109-114: only $v and $f are accepted (else the assertion fails); the index is
    int(digits) - 1. *)
Definition bind_var (v : text) : option tree :=
  match v with
  | _ :: t :: d => if (t =? 118) || (t =? 102) then Some (TIn (int_of d - 1)) else None
  | _ => None
  end.
Fixpoint opt_list {A} (l : list (option A)) : option (list A) :=
  match l with
  | [] => Some []
  | Some a :: l' => match opt_list l' with Some r => Some (a :: r) | None => None end
  | None :: _ => None
  end.
Fixpoint prep (root : bool) (e : ast) : option tree :=
  match e with
  | Num_i d => Some (if root then TRaw d else TLoad false d)
  | Num_f d => Some (if root then TRaw d else TLoad true d)
  | Var v => bind_var v
  | Node op args => match opt_list (map (prep false) args) with Some l => Some (TOp op l) | None => None end
  end.

(** BufferAllocator, l.23-49.  set.pop returns an arbitrary element: [pick], which may depend on
    everything that happened before ([ba_steps]). *)
Record ba := mkBa { ba_avail : list nat; ba_next : nat; ba_steps : nat }.
Definition ba_init : ba := mkBa [] 0 0.
Section Gen.
Variable pick : nat -> list nat -> nat.
Definition next_buf (st : ba) : nat * ba :=
  match ba_avail st with
  | [] => (ba_next st, mkBa [] (S (ba_next st)) (S (ba_steps st)))
  | _ => let b := pick (ba_steps st) (ba_avail st) in
         (b, mkBa (filter (fun x => negb (x =? b)%nat) (ba_avail st)) (ba_next st) (S (ba_steps st)))
  end.
Definition free_buf (b : nat) (st : ba) : ba :=
  if existsb (Nat.eqb b) (ba_avail st) then st else mkBa (b :: ba_avail st) (ba_next st) (S (ba_steps st)).
(** l.158: ba.free(int(b[2])) - the first digit of the buffer's number. *)
Fixpoint first_digit_fuel (fuel n : nat) : nat :=
  match fuel with O => n | S f => if (n <? 10)%nat then n else first_digit_fuel f (n / 10)%nat end.
Definition first_digit (n : nat) : nat := first_digit_fuel n n.

Inductive operand := OBuf (b : nat) | OIn (i : Z) | OLit (d : text) | OOut.
Inductive cline :=
| CLoad (fl : bool) (b : nat) (d : text)          (* __hv_var_k_f(&Bf, d, ..., d); or __hv_var_k_i *)
| CCall (f : text) (args : list operand) (dest : operand).       (* f(args, dest); *)
Fixpoint free_all (os : list operand) (st : ba) : ba :=
  match os with
  | [] => st
  | OBuf b :: os' => free_all os' (free_buf (first_digit b) st)
  | _ :: os' => free_all os' st
  end.
(** _to_c_simd_R, l.121-160.  [to_out]: r_vec is given (only at the root).  None: KeyError. *)
Fixpoint gen (to_out : bool) (t : tree) (st : ba) {struct t} : option (operand * list cline * ba) :=
  match t with
  | TIn i => Some (OIn i, [], st)
  | TRaw d => Some (OLit d, [], st)
  | TLoad fl d => let (b, st1) := next_buf st in Some (OBuf b, [CLoad fl b d], st1)
  | TOp op args =>
    let fix gens (l : list tree) (st : ba) : option (list operand * list cline * ba) :=
      match l with
      | [] => Some ([], [], st)
      | a :: l' =>
        match gen false a st with
        | None => None
        | Some (o, ls, st1) =>
          match gens l' st1 with
          | None => None
          | Some (os, ls', st2) => Some (o :: os, ls ++ ls', st2)
          end
        end
      end in
    (* l.122-125: a unary minus gets a constant zero as its first argument *)
    let zero := text_eqb op (T "-") && (length args =? 1)%nat in
    let (z, st0) := if zero then let (b, st1) := next_buf st in (Some b, st1) else (None, st) in
    match gens args st0 with
    | None => None
    | Some (os, ls, st1) =>
      let os := match z with Some b => OBuf b :: os | None => os end in
      let ls := match z with Some b => CLoad true b (T "0.0f") :: ls | None => ls end in
      let (dest, st2) := if to_out then (OOut, st1) else let (b, st2) := next_buf st1 in (OBuf b, st2) in
      match get_hv_func_simd op with
      | None => None
      | Some f => Some (dest, ls ++ [CCall f os dest], free_all os st2)
      end
    end
  end.
(** to_c_simd("bIns", "bOut")[:-1] (SignalExpr.py:71): the lines, and the number of buffers. *)
Definition to_c_simd (e : ast) : option (list cline * nat) :=
  match prep true e with
  | None => None
  | Some t => match gen true t ba_init with Some (_, ls, st) => Some (ls, ba_next st) | None => None end
  end.
End Gen.

(** Running the generated function on one vector: [csem] is what the C functions of HvMath.h compute,
    [const] what __hv_var_k_f (true) or __hv_var_k_i (false) puts in a buffer
    (the latter does not compile for AVX and SSE; [const] is arbitrary), [ins] the input array (by value), [old] what the output
    buffer held.  Reading outside of the input array is undefined. *)
Section Run.
Context {V : Type} (csem : text -> list V -> V) (const : bool -> text -> V) (ins : list V).
Record cstate := mkC { c_buf : nat -> V; c_out : V }.
Definition operand_value (s : cstate) (o : operand) : outcome V :=
  match o with
  | OBuf b => Ok (c_buf s b)
  | OIn i => if i <? 0 then UB else match nth_error ins (Z.to_nat i) with Some v => Ok v | None => UB end
  | OLit _ => UB                                     (* never an operand: constants below the root are loads *)
  | OOut => Ok (c_out s)
  end.
Fixpoint operand_values (s : cstate) (os : list operand) : outcome (list V) :=
  match os with
  | [] => Ok []
  | o :: os' => let! v := operand_value s o in let! r := operand_values s os' in Ok (v :: r)
  end.
Definition set_buf (s : cstate) (b : nat) (v : V) : cstate :=
  mkC (fun x => if (x =? b)%nat then v else c_buf s x) (c_out s).
Definition run_line (s : cstate) (l : cline) : outcome cstate :=
  match l with
  | CLoad fl b d => Ok (set_buf s b (const fl d))
  | CCall f args dest =>
    let! vs := operand_values s args in
    match dest with
    | OBuf b => Ok (set_buf s b (csem f vs))
    | OOut => Ok (mkC (c_buf s) (csem f vs))
    | _ => UB
    end
  end.
Fixpoint run_lines (s : cstate) (ls : list cline) : outcome cstate :=
  match ls with [] => Ok s | l :: ls' => let! s1 := run_line s l in run_lines s1 ls' end.
End Run.

(** PdExprObject.py:57-65: the number of inlets is the largest variable number, else 1. *)
Fixpoint find_vars_fuel (n : nat) (s : text) : list text :=
  match n with
  | O => []
  | S n =>
    match s with
    | [] => []
    | a :: s1 =>
      match s1 with
      | b :: s2 =>
        if (a =? DOLLAR) && is_vtype b then
          match span_digits s2 with
          | ([], _) => find_vars_fuel n s1
          | (d, r) => (a :: b :: d) :: find_vars_fuel n r
          end
        else find_vars_fuel n s1
      | [] => []
      end
    end
  end.
Definition find_vars (s : text) : list text := find_vars_fuel (length s) s.
Definition num_inlets (s : text) : Z :=
  match find_vars s with
  | [] => 1
  | l => fold_right (fun v acc => Z.max (int_of (skipn 2 v)) acc) 0 l
  end.

(** ** expr~ objects of a patch, ir2c.py:246-266 and SignalExpr.py:52-60, 94-110.
    For each object in process order: the index it is called with is the number of functions registered
    so far, then its own function is registered (a dictionary by id); the table of functions is the
    dictionary's values in order. *)
Fixpoint dict_add (d : list (Z * Z)) (k v : Z) : list (Z * Z) :=
  match d with
  | [] => [(k, v)]
  | (k', v') :: d' => if k =? k' then (k', v) :: d' else (k', v') :: dict_add d' k v
  end.
Fixpoint emit_exprs (objs : list Z) (d : list (Z * Z)) : list (Z * nat) * list (Z * Z) :=
  match objs with
  | [] => ([], d)
  | o :: objs' => let (calls, d') := emit_exprs objs' (dict_add d o o) in ((o, length d) :: calls, d')
  end.
(** The function (named after its object) that each call runs. *)
Definition expr_calls (objs : list Z) : list (Z * option Z) :=
  let (calls, d) := emit_exprs objs [] in map (fun c => (fst c, nth_error (map snd d) (snd c))) calls.

(** ** Control expr *)
(** var_n, ControlExpr.py:94-103: the C text of a variable; None: the assertion on $s fails. *)
Fixpoint dec_fuel (n : nat) (z : Z) : text :=
  match n with
  | O => []
  | S n => if z <? 10 then [48 + z] else dec_fuel n (z / 10) ++ [48 + z mod 10]
  end.
Definition dec (z : Z) : text := if z <? 0 then 45 :: dec_fuel (S (Z.to_nat (- z))) (- z) else dec_fuel (S (Z.to_nat z)) z.
Definition var_n (v : text) : option text :=
  match v with
  | _ :: t :: d =>
    if t =? 102 then Some (T "((float)(args[" ++ dec (int_of d - 1) ++ T "]))")
    else if t =? 105 then Some (T "((int)(args[" ++ dec (int_of d - 1) ++ T "]))")
    else None
  | _ => None
  end.
(** list.sort(reverse=True) on strings: descending lexicographic order. *)
Fixpoint text_ltb (a b : text) : bool :=
  match a, b with
  | [], [] => false
  | [], _ :: _ => true
  | _ :: _, [] => false
  | x :: a', y :: b' => (x <? y) || ((x =? y) && text_ltb a' b')
  end.
Fixpoint insert_desc (v : text) (l : list text) : list text :=
  match l with
  | [] => [v]
  | x :: l' => if text_ltb x v then v :: l else x :: insert_desc v l'
  end.
Definition sort_desc (l : list text) : list text := fold_right insert_desc [] l.
(** re.findall(r"\$[fis]\d+", exp): as [find_vars] without $v. *)
Definition is_fis (v : text) : bool := match v with _ :: t :: _ => negb (t =? 118) | _ => false end.
(** bind_expr, l.121-132, without the renaming of functions (internal_expr, l.106-118, which leaves
    variables alone). *)
Fixpoint bind_all (vars : list text) (s : text) : option text :=
  match vars with
  | [] => Some s
  | v :: vs => match var_n v with Some c => bind_all vs (replace s v c) | None => None end
  end.
Definition bind_expr (s : text) : option text := bind_all (sort_desc (filter is_fis (find_vars s))) s.
