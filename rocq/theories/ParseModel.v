(** Model of the reading of Pd files: /repo/hvcc/interpreters/pd2hv/PdParser.py, PdMessageObject.py, PdGraph.py,
    PdReceiveObject.py.

    Texts are lists of character codes.  [None]: a Python exception or an error message, after which the patch is
    not compiled.  Not modelled here: the objects' own classes, the resolution of $-arguments (ArgsModel). *)
From Verif Require Export ExprModel.
From Coq Require Export DecimalZ.
From Coq Require Import String Ascii.
Local Open Scope list_scope.
Local Open Scope Z_scope.

Definition NL : Z := 10.
Definition CR : Z := 13.
Definition SP : Z := 32.

(** ** From the file to the records *)
(** open(path, "r"): the ends of lines are translated. *)
Fixpoint universal (s : text) : text :=
  match s with
  | [] => []
  | c :: s' =>
    if c =? CR then NL :: match s' with
                          | d :: s'' => if d =? NL then universal s'' else universal s'
                          | [] => []
                          end
    else c :: universal s'
  end.
(** The lines of a file, without their ends; [cur]: the beginning of the current line. *)
Fixpoint lines_from (cur s : text) : list text :=
  match s with
  | [] => match cur with [] => [] | _ => [cur] end
  | c :: s' => if c =? NL then cur :: lines_from [] s' else lines_from (cur ++ [c]) s'
  end.
Definition file_lines (s : text) : list text := lines_from [] (universal s).
Definition ends_with (p s : text) : bool := starts (rev p) (rev s).
(** PdParser.get_pd_line, PdParser.py:107-122.  (rstrip finds no end of line any more.) *)
Fixpoint pd_lines (concat : text) (ls : list text) : list text :=
  match ls with
  | [] => []
  | li :: ls' =>
    if ends_with (T ";") li && negb (ends_with (T "\;") li) then
      let out := removelast li in
      (match concat with [] => out | _ => concat ++ T " " ++ out end) :: pd_lines [] ls'
    else pd_lines (match concat with [] => li | _ => concat ++ T " " ++ li end) ls'
  end.
Definition records (s : text) : list text := pd_lines [] (file_lines s).

(** ** From a record to its words: PdParser.split_line, PdParser.py:124-133 *)
Fixpoint span_digits (s : text) : text * text :=
  match s with
  | [] => ([], [])
  | c :: s' => if is_digit c then let (d, r) := span_digits s' in (c :: d, r) else ([], s)
  end.
(** RE_WIDTH.sub: ", f " and digits at the end are dropped. *)
Definition strip_width (s : text) : text :=
  let (d, r) := span_digits (rev s) in
  if negb (match d with [] => true | _ => false end) && starts (rev (T ", f ")) r then rev (skipn 4 r) else s.
(** RE_SPACE.split: spaces that do not follow a backslash; [prev]: such a backslash. *)
Fixpoint split_spaces (prev : bool) (cur s : text) : list text :=
  match s with
  | [] => [cur]
  | c :: s' => if (c =? SP) && negb prev then cur :: split_spaces false [] s'
               else split_spaces (c =? BACKSLASH) (cur ++ [c]) s'
  end.
Definition split_line (li : text) : list text :=
  map (fun w => replace w (T "\ ") (T " ")) (split_spaces false [] (strip_width li)).

(** ** Python's int(), str.join, str.split *)
(** Signs other than "-", white space and "_" are not modelled. *)
Fixpoint read_uint (s : text) : option Decimal.uint :=
  match s with
  | [] => Some Decimal.Nil
  | c :: s' =>
    match read_uint s' with
    | None => None
    | Some u =>
      if c =? 48 then Some (Decimal.D0 u) else if c =? 49 then Some (Decimal.D1 u) else if c =? 50 then Some (Decimal.D2 u)
      else if c =? 51 then Some (Decimal.D3 u) else if c =? 52 then Some (Decimal.D4 u) else if c =? 53 then Some (Decimal.D5 u)
      else if c =? 54 then Some (Decimal.D6 u) else if c =? 55 then Some (Decimal.D7 u) else if c =? 56 then Some (Decimal.D8 u)
      else if c =? 57 then Some (Decimal.D9 u) else None
    end
  end.
Definition read_int (s : text) : option Z :=
  match s with
  | [] => None
  | c :: s' => if c =? 45 then match s' with [] => None | _ => option_map (fun u => Z.of_int (Decimal.Neg u)) (read_uint s') end
               else option_map (fun u => Z.of_int (Decimal.Pos u)) (read_uint s)
  end.
Fixpoint join (sep : text) (l : list text) : text :=
  match l with [] => [] | [w] => w | w :: l' => w ++ sep ++ join sep l' end.
(** s.split(sep) *)
Fixpoint split_from (sep s cur : text) (skip : nat) : list text :=
  match s with
  | [] => [cur]
  | c :: s' =>
    match skip with
    | S k => split_from sep s' cur k
    | O => if starts sep s then cur :: split_from sep s' [] (List.length sep - 1) else split_from sep s' (cur ++ [c]) 0
    end
  end.
Definition split_on (sep s : text) : list text := split_from sep s [] 0.
(** s.split(); only ASCII white space *)
Definition is_blank (c : Z) : bool := ((9 <=? c) && (c <=? 13)) || ((28 <=? c) && (c <=? 32)).
Fixpoint words_from (cur s : text) : list text :=
  match s with
  | [] => match cur with [] => [] | _ => [cur] end
  | c :: s' => if is_blank c then match cur with [] => words_from [] s' | _ => cur :: words_from [] s' end
               else words_from (cur ++ [c]) s'
  end.
Definition words (s : text) : list text := words_from [] s.
Definition is_empty (s : text) : bool := match s with [] => true | _ => false end.

(** ** Message boxes: PdMessageObject.__init__, PdMessageObject.py:29-74 (without the check of $-arguments) *)
Record message_box := mkBox { m_local : list (list text); m_remote : list (text * list text) }.
Fixpoint read_remote (l : list text) : option (list (text * list text)) :=
  match l with
  | [] => Some []
  | li :: l' => match words li, read_remote l' with
                | r :: m, Some rest => Some ((r, m) :: rest)
                | _, _ => None
                end
  end.
Definition read_box (s : text) : option message_box :=
  let semi := filter (fun x => negb (is_empty x)) (split_on (T "\;") (replace s (T "\$") (T "$"))) in
  let local := match semi with
               | [] => []
               | first :: _ => filter (fun m => match m with [] => false | _ => true end) (map words (split_on (T "\,") first))
               end in
  match read_remote (tl semi) with Some r => Some (mkBox local r) | None => None end.

(** ** Canvases: PdParser.graph_from_canvas, PdParser.py:224-674 *)
(** An object of a graph: its class and arguments as text.  Abstractions and library objects stay unexpanded. *)
Inductive pobj :=
| OComment (s : text)
| OObject (words : list text)                  (* the type and the arguments *)
| OAtom (words : list text)                    (* floatatom, symbolatom *)
| OMessage (b : message_box)
| OTable (name : list text) (size : Z) (values : list text)
| OHeavy (type : text) (args : list text)      (* a canvas that ends with @hv_obj *)
| OGraph (name : text) (g : pgraph)
| OSend (args : list text) | OReceive (args : list text)
with pgraph := mkGraph (objs : list pobj) (conns : list (Z * Z * Z * Z)).
Definition g_objs (g : pgraph) := match g with mkGraph o _ => o end.
Definition g_conns (g : pgraph) := match g with mkGraph _ c => c end.

(** What graph_from_canvas keeps while it reads: objects, connections, the array being read (index of its object),
    message boxes with remote parts, names of GUI objects. *)
Record canvas := mkCanvas {
  c_objs : list pobj; c_conns : list (Z * Z * Z * Z); c_array : option nat;
  c_msg : list (nat * list (text * list text)); c_send : list (nat * text); c_recv : list (nat * text) }.
Definition empty_canvas : canvas := mkCanvas [] [] None [] [] [].
(** PdGraph.add_object, PdGraph.py:75-92 (the numbering of inlets is in PatchModel). *)
Definition add_object (c : canvas) (o : pobj) : canvas :=
  mkCanvas (c_objs c ++ [o]) (c_conns c) (c_array c) (c_msg c) (c_send c) (c_recv c).
Definition next_index (c : canvas) : nat := List.length (c_objs c).
Definition add_conn (c : canvas) (k : Z * Z * Z * Z) : canvas :=
  mkCanvas (c_objs c) (c_conns c ++ [k]) (c_array c) (c_msg c) (c_send c) (c_recv c).
Definition set_gui (c : canvas) (i : nat) (none snd rcv : text) : canvas :=
  mkCanvas (c_objs c) (c_conns c) (c_array c) (c_msg c)
    (if text_eqb snd none then c_send c else c_send c ++ [(i, snd)])
    (if text_eqb rcv none then c_recv c else c_recv c ++ [(i, rcv)]).
Fixpoint update {A} (l : list A) (n : nat) (f : A -> A) : list A :=
  match l, n with [], _ => [] | x :: l', O => f x :: l' | x :: l', S k => x :: update l' k f end.
Definition word_at (line : list text) (i : nat) : option text := nth_error line i.
Definition is_word_at (line : list text) (i : nat) (w : string) : bool :=
  match nth_error line i with Some x => text_eqb x (T w) | None => false end.
(** PdParser.py:510-520: the positions of the send and receive names among the arguments. *)
Definition gui_index (type : text) : option (nat * nat) :=
  if existsb (text_eqb type) [T "nbx"; T "vsl"; T "hsl"] then Some (6, 7)%nat
  else if existsb (text_eqb type) [T "vradio"; T "hradio"; T "bng"] then Some (4, 5)%nat
  else if text_eqb type (T "tgl") then Some (2, 3)%nat
  else if existsb (text_eqb type) [T "knob"; T "else/knob"] then Some (5, 6)%nat
  else None.
(** int(line[i]) *)
Definition int_at (line : list text) (i : nat) : option Z :=
  match nth_error line i with Some w => read_int w | None => None end.
Definition positioned (line : list text) : bool :=
  match int_at line 2, int_at line 3 with Some _, Some _ => true | _, _ => false end.

(** PdParser.py:296-318: the values are made to fit the size.  (Sizes like 1e+06, which Pd writes from 1000000 on, are not
    modelled: [read_line] reads integers only.) *)
Definition finish_array (o : pobj) : pobj :=
  match o with
  | OTable name declared values =>
      let n := zlen values in
      if declared =? n then o
      else
        let new_size := Z.max declared n in
        OTable name new_size (values ++ repeat (T "0.0") (Z.to_nat (new_size - declared)))
  | _ => o
  end.
(** One line, other than a canvas or its end. *)
Definition read_line (c : canvas) (line : list text) : option canvas :=
  match line with
  | [] => None
  | head :: _ =>
    if text_eqb head (T "#N") then match word_at line 1 with Some _ => Some c | None => None end     (* l.266-276: only "canvas" *)
    else if text_eqb head (T "#X") then
      if is_word_at line 1 "text" then                                                             (* l.321-331 *)
        if positioned line then Some (add_object c (OComment (join (T " ") (skipn 4 line)))) else None
      else if is_word_at line 1 "obj" then                                                         (* l.333-532 *)
        if positioned line then
          match skipn 4 line with
          | [] => Some (add_object c (OComment (T "null object placeholder")))
          | type :: args =>
              if text_eqb type (T "block~") then Some (add_object c (OComment (T "block~ object placeholder")))
              else
                let c' := add_object c (OObject (type :: args)) in
                match gui_index type with
                | None => Some c'
                | Some (i, j) =>
                    match nth_error args i, nth_error args j with
                    | Some a, Some b => Some (set_gui c' (next_index c) (T "empty") a b)
                    | _, _ => None
                    end
                end
          end
        else None
      else if is_word_at line 1 "floatatom" || is_word_at line 1 "symbolatom" then                 (* l.534-555 *)
        if positioned line then
          let args := skipn 1 line in
          let c' := add_object c (OAtom args) in
          if is_word_at line 1 "floatatom" then
            match nth_error args 9, nth_error args 8 with
            | Some a, Some b => Some (set_gui c' (next_index c) (T "-") a b)
            | _, _ => None
            end
          else Some c'
        else None
      else if is_word_at line 1 "array" then                                                       (* l.557-578 *)
        match c_array c, word_at line 2, int_at line 3 with
        | None, Some name, Some size =>
            let c' := add_object c (OTable (split_on (T " ") name) size []) in
            Some (mkCanvas (c_objs c') (c_conns c') (Some (next_index c)) (c_msg c') (c_send c') (c_recv c'))
        | _, _, _ => None
        end
      else if is_word_at line 1 "msg" then                                                         (* l.580-594 *)
        match positioned line, read_box (join (T " ") (skipn 4 line)) with
        | true, Some b =>
            let c' := add_object c (OMessage b) in
            Some (mkCanvas (c_objs c') (c_conns c') (c_array c') (c_msg c' ++ [(next_index c, m_remote b)]) (c_send c') (c_recv c'))
        | _, _ => None
        end
      else if is_word_at line 1 "connect" then                                                     (* l.596-601 *)
        match int_at line 2, int_at line 3, int_at line 4, int_at line 5 with
        | Some a, Some o, Some b, Some i => Some (add_conn c (a, o, b, i))
        | _, _, _, _ => None
        end
      else if is_word_at line 1 "declare" || is_word_at line 1 "coords" || is_word_at line 1 "f" then Some c
      else None
    else if text_eqb head (T "#A") then                                                            (* l.633-634 *)
      match c_array c with
      | Some k => Some (mkCanvas (update (c_objs c) k (fun o => match o with
                                                                | OTable n s vs => OTable n s (vs ++ skipn 2 line)
                                                                | _ => o
                                                                end)) (c_conns c) (c_array c) (c_msg c) (c_send c) (c_recv c))
      | None => None
      end
    else None
  end.
Definition graph_of (c : canvas) : pgraph := mkGraph (c_objs c) (c_conns c).
(** What follows the loop, PdParser.py:648-674: hidden message boxes, senders and receivers. *)
Fixpoint indices_to (n : Z) (conns : list (Z * Z * Z * Z)) : list Z :=       (* conns["0"] of object [n]: the senders *)
  match conns with
  | [] => []
  | (a, _, b, i) :: l => if (b =? n) && (i =? 0) then a :: indices_to n l else indices_to n l
  end.
Definition add_remote (n : nat) (c : canvas) (r : text * list text) : canvas :=
  match read_box (join (T " ") (snd r)) with
  | None => c
  | Some b =>
    let ups := indices_to (Z.of_nat n) (c_conns c) in
    let k := Z.of_nat (next_index c) in
    let c1 := add_object (add_object c (OMessage b)) (OSend [fst r]) in
    let c2 := fold_left (fun c a => add_conn c (a, 0, k, 0)) ups c1 in
    add_conn c2 (k, 0, k + 1, 0)
  end.
Definition add_send (c : canvas) (e : nat * text) : canvas :=
  let k := Z.of_nat (next_index c) in add_conn (add_object c (OSend (words (snd e)))) (Z.of_nat (fst e), 0, k, 0).
Definition add_recv (c : canvas) (e : nat * text) : canvas :=
  let k := Z.of_nat (next_index c) in add_conn (add_object c (OReceive (words (snd e)))) (k, 0, Z.of_nat (fst e), 0).
Definition finish (c : canvas) : canvas :=
  let c1 := fold_left (fun c e => fold_left (add_remote (fst e)) (snd e) c) (c_msg c) c in
  let c2 := fold_left add_send (c_send c) c1 in
  fold_left add_recv (c_recv c) c2.

(** The loop over the lines.  The answer: the object and the lines that are left; [fuel] bounds the number of lines.
    A canvas inside a file ends with "#X restore" (l.278-318: the function returns at once, without [finish]); the
    canvas of the file ends with the file. *)
Fixpoint read_canvas (fuel : nat) (c : canvas) (ls : list (list text)) : option (pobj * list (list text)) :=
  match fuel with
  | O => None
  | S f =>
    match ls with
    | [] => Some (OGraph [] (graph_of (finish c)), [])
    | line :: rest =>
      if is_word_at line 0 "#N" && is_word_at line 1 "canvas" then
        if positioned line then
          match read_canvas f empty_canvas rest with
          | Some (o, rest') => read_canvas f (add_object c o) rest'
          | None => None
          end
        else None
      else if is_word_at line 0 "#X" && is_word_at line 1 "restore" then
        if is_word_at line 5 "@hv_obj" then
          match word_at line 6 with
          | Some t => if positioned line then Some (OHeavy t (skipn 7 line), rest) else None
          | None => None
          end
        else
          let objs := match c_array c with Some k => update (c_objs c) k finish_array | None => c_objs c end in
          Some (OGraph (if Nat.ltb 5 (List.length line) then join (T " ") (skipn 5 line) else T "subpatch") (mkGraph objs (c_conns c)), rest)
      else match read_line c line with Some c' => read_canvas f c' rest | None => None end
    end
  end.
(** PdParser.graph_from_file, PdParser.py:165-222 *)
Definition read_file (s : text) : option pgraph :=
  match records s with
  | [] => None
  | first :: rest =>
    if starts (T "#N canvas") first then
      match read_canvas (S (List.length rest)) empty_canvas (map split_line rest) with
      | Some (OGraph _ g, _) => Some g
      | _ => None
      end
    else None
  end.

(** ** The arguments an abstraction declares: PdParser.__get_hv_args, PdParser.py:85-105.
    A dictionary from the canvas lines, in order of their first insertion; [depth]: num_canvas, [cur]: the key of the list
    that is being filled.  [None]: IndexError. *)
Definition rstrip_line (s : text) : text :=
  rev ((fix drop l := match l with c :: l' => if (c =? 59) || (c =? CR) || (c =? NL) then drop l' else l | [] => [] end) (rev s)).
Fixpoint put_key {A} (k : text) (v : A) (d : list (text * A)) : list (text * A) :=
  match d with [] => [(k, v)] | (x, w) :: d' => if text_eqb k x then (x, v) :: d' else (x, w) :: put_key k v d' end.
Fixpoint append_at {A} (k : text) (v : A) (d : list (text * list A)) : list (text * list A) :=
  match d with [] => [] | (x, w) :: d' => if text_eqb k x then (x, w ++ [v]) :: d' else (x, w) :: append_at k v d' end.
Fixpoint lookup {A} (k : text) (d : list (text * A)) : option A :=
  match d with [] => None | (x, w) :: d' => if text_eqb k x then Some w else lookup k d' end.
(** list(d.values())[i], negative numbers from the end *)
Definition key_at {A} (d : list (text * A)) (i : Z) : option text :=
  let n := zlen d in
  let j := if i <? 0 then n + i else i in
  if (0 <=? j) && (j <? n) then option_map fst (nth_error d (Z.to_nat j)) else None.
Fixpoint hv_args (d : list (text * list text)) (cur : option text) (depth : Z) (ls : list text) : option (list (text * list text)) :=
  match ls with
  | [] => Some d
  | li :: ls' =>
    if starts (T "#N canvas") li then
      let k := rstrip_line li in hv_args (put_key k [] d) (Some k) (depth + 1) ls'
    else match contains (T "@hv_arg") li, cur with
         | true, Some k => hv_args (append_at k (rstrip_line li) d) cur depth ls'
         | _, _ =>
           if starts (T "#X restore") li then
             match key_at d (depth - 1) with
             | Some k => hv_args d (Some k) (depth - 1) ls'
             | None => None
             end
           else hv_args d cur depth ls'
         end
  end.
(** The argument lines of the file's own canvas. *)
Definition file_hv_args (s : text) : option (list text) :=
  let ls := file_lines s in
  match hv_args [] None (-1) ls, records s with
  | Some d, first :: _ => lookup first d
  | _, _ => None
  end.

(** One such line, PdParser.py:244-255: the number of the argument (from 0), its name, type, default value, and whether it is
    required.  [None]: an exception.  (The conversion of the default value is not modelled.) *)
Definition read_arg (li : text) : option (Z * text * text * text * bool) :=
  let line := words li in
  if is_word_at line 4 "@hv_arg" then
    match nth_error line 5, nth_error line 6, nth_error line 7, nth_error line 8, nth_error line 9 with
    | Some i, Some name, Some type, Some default, Some r =>
        match read_int (skipn 2 i) with Some n => Some (n - 1, name, type, default, text_eqb r (T "true")) | None => None end
    | _, _, _, _, _ => None
    end
  else None.

(** ** Abstractions inside abstractions *)
(** The names of the objects of a file that are files themselves; [fs]: the files. *)
Definition files := text -> option (list text).
(** PdGraph.__init__, PdGraph.py:28-58: l.34 stores the path, l.58 assigns "" to the same attribute (its mangled name);
    the parent graph is set when the finished graph is added to it (PdParser.py:507, PdGraph.py:76). *)
Record graph_head := mkHead { h_path : text; h_parent : option text }.
Definition new_graph (pd_path : text) : graph_head := mkHead [] None.
(** PdGraph.is_abstraction_on_call_stack, PdGraph.py:177-187 *)
Definition on_call_stack (g : graph_head) (abs_path : text) : bool :=
  text_eqb (h_path g) abs_path || match h_parent g with Some p => text_eqb p abs_path | None => false end.
(** graph_from_file for the abstractions of a file.  [zero]: the last $0 given away (PdParser.py:187-188); the answer:
    the instances created, with their $0, and the last $0.  Python's stack holds [depth] calls; the exception at its end is
    caught where it is raised (PdParser.py:639-647: every graph that is being read has no parent) and reading goes on.  *)
Fixpoint load (depth : nat) (fs : files) (path : text) (zero : Z) : list (text * Z) * Z :=
  match depth with
  | O => ([], zero)
  | S d =>
    let z := zero + 1 in
    let g := new_graph path in
    fold_left (fun acc name =>
                 match fs name with
                 | Some _ => if on_call_stack g name then acc
                             else let (l, z') := load d fs name (snd acc) in (fst acc ++ l, z')
                 | None => acc
                 end)
              (match fs path with Some l => l | None => [] end) ([(path, z)], z)
  end.

(** ** Priorities of receivers: PdReceiveObject.py:30-38, 110-117.  [instance]: the number of the receiver, in the order in
    which they are created; [depth]: that of its graph, 1 for the root. *)
Definition recv_priority (depth instance : Z) : Z := depth * 1000 - instance.
