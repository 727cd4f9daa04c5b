(** What a Pd file says.  A file is a list of records, a record a list of atoms; Pd writes an atom with backslashes, puts
    spaces or ends of lines between atoms, and ends a record with ";" and an end of line. *)
From Verif Require Import ParseModel.
From Coq Require Import String.
Local Open Scope list_scope.
Local Open Scope Z_scope.

(** Pd writes a backslash before a comma, a semicolon, a backslash, a space, and a dollar before a digit. *)
Definition dollar_digit (c : Z) (a : text) : bool := (c =? 36) && match a with d :: _ => (48 <=? d) && (d <=? 57) | [] => false end.
Fixpoint written (a : text) : text :=
  match a with
  | [] => []
  | c :: a' => (if (c =? 44) || (c =? 59) || (c =? 92) || (c =? 32) || dollar_digit c a' then [92; c] else [c]) ++ written a'
  end.
(** The same without those of spaces. *)
Fixpoint held (a : text) : text :=
  match a with
  | [] => []
  | c :: a' => (if (c =? 44) || (c =? 59) || (c =? 92) || dollar_digit c a' then [92; c] else [c]) ++ held a'
  end.
(** A record may end with the width of its box: ", f 12". *)
Record rec := mkRec { r_atoms : list text; r_width : option text }.
Fixpoint last_comma (l : list text) : list text :=
  match l with [] => [] | [w] => [w ++ T ","] | w :: l' => w :: last_comma l' end.
Definition rec_words (r : rec) : list text :=
  match r_width r with
  | None => map written (r_atoms r)
  | Some d => last_comma (map written (r_atoms r)) ++ [T "f"; d]
  end.
(** [brk i k]: the line ends after the word [k] of record [i]. *)
Fixpoint put_words (brk : nat -> bool) (k : nat) (l : list text) : text :=
  match l with [] => [] | [w] => w | w :: l' => w ++ [if brk k then 10 else 32] ++ put_words brk (S k) l' end.
Fixpoint put_recs (brk : nat -> nat -> bool) (i : nat) (l : list rec) : text :=
  match l with [] => [] | r :: l' => put_words (brk i) 0 (rec_words r) ++ [59; 10] ++ put_recs brk (S i) l' end.
Definition pd_file (brk : nat -> nat -> bool) (l : list rec) : text := put_recs brk 0 l.

Definition digits (d : text) : Prop := d <> [] /\ Forall (fun c => 48 <= c <= 57) d.
(** Atoms: not empty, without ends of lines and backslashes. *)
Definition atom_ok (a : text) : Prop := a <> [] /\ ~ In 10 a /\ ~ In 13 a /\ ~ In 92 a.
(** The last three atoms are not a comma (or end with one), "f" and digits. *)
Definition no_width (l : list text) : Prop := forall l' a d, l = l' ++ [a ++ T ","; T "f"; d] -> ~ digits d.
Definition rec_ok (r : rec) : Prop :=
  r_atoms r <> [] /\ Forall atom_ok (r_atoms r) /\
  match r_width r with None => no_width (r_atoms r) | Some d => digits d end.
(** Ends of lines as on Windows. *)
Definition to_crlf (s : text) : text := flat_map (fun c => if c =? 10 then [13; 10] else [c]) s.

(** ** Message boxes: messages, separated by commas, then for every receiver a semicolon, its name and messages. *)
Fixpoint commas (comma : text) (l : list (list text)) : list text :=
  match l with [] => [] | [m] => m | m :: l' => m ++ [comma] ++ commas comma l' end.
Definition box_atoms (local : list (list text)) (remote : list (text * list (list text))) : list text :=
  commas (T ",") local ++ flat_map (fun r => [T ";"; fst r] ++ commas (T ",") (snd r)) remote.
(** Words of a message: not empty, no white space, comma, semicolon or backslash. *)
Definition word_ok (w : text) : Prop := w <> [] /\ forall c, In c w -> is_blank c = false /\ c <> 44 /\ c <> 59 /\ c <> 92.
Definition messages_ok (l : list (list text)) : Prop := Forall (fun m => m <> [] /\ Forall word_ok m) l.

(** ** Patches *)
Definition nat_text (n : Z) : text :=
  (fix go u := match u with
               | Decimal.Nil => []
               | Decimal.D0 u => 48 :: go u | Decimal.D1 u => 49 :: go u | Decimal.D2 u => 50 :: go u | Decimal.D3 u => 51 :: go u
               | Decimal.D4 u => 52 :: go u | Decimal.D5 u => 53 :: go u | Decimal.D6 u => 54 :: go u | Decimal.D7 u => 55 :: go u
               | Decimal.D8 u => 56 :: go u | Decimal.D9 u => 57 :: go u
               end) (match Z.to_int n with Decimal.Pos u => u | Decimal.Neg u => u end).
Definition int_text (n : Z) : text := if n <? 0 then 45 :: nat_text n else nat_text n.
Inductive thing :=
| Comment (x y : Z) (ws : list text)
| Obj (x y : Z) (ws : list text) (width : option text)
| Msg (x y : Z) (local : list (list text)) (remote : list (text * list (list text)))
| Sub (x y : Z) (name : list text) (content : sheet)
| Table (x y : Z) (name : text) (chunks : list (list text))        (* the values, in several records *)
with sheet := mkSheet (things : list thing) (wires : list (Z * Z * Z * Z)).
Definition at_xy (kind : string) (x y : Z) (l : list text) : list text := [T "#X"; T kind; int_text x; int_text y] ++ l.
Definition plain_rec (l : list text) : rec := mkRec l None.
Fixpoint values_recs (i : Z) (chunks : list (list text)) : list rec :=
  match chunks with [] => [] | l :: chunks' => plain_rec ([T "#A"; int_text i] ++ l) :: values_recs (i + zlen l) chunks' end.
Fixpoint thing_recs (t : thing) : list rec :=
  match t with
  | Comment x y ws => [plain_rec (at_xy "text" x y ws)]
  | Obj x y ws width => [mkRec (at_xy "obj" x y ws) width]
  | Msg x y local remote => [plain_rec (at_xy "msg" x y (box_atoms local remote))]
  | Sub x y name (mkSheet ts ws) =>
      plain_rec [T "#N"; T "canvas"; int_text x; int_text y; T "450"; T "300"; T "sub"; T "0"] ::
      flat_map thing_recs ts ++
      map (fun w => match w with (a, o, b, i) => plain_rec [T "#X"; T "connect"; int_text a; int_text o; int_text b; int_text i] end) ws ++
      [plain_rec (at_xy "restore" x y (T "pd" :: name))]
  | Table x y name chunks =>
      plain_rec [T "#N"; T "canvas"; int_text x; int_text y; T "450"; T "300"; T "sub"; T "0"] ::
      plain_rec [T "#X"; T "array"; name; int_text (zlen (List.concat chunks)); T "float"; T "3"] ::
      values_recs 0 chunks ++
      [plain_rec [T "#X"; T "coords"; T "0"; T "1"; T "100"; T "-1"; T "200"; T "140"; T "1"];
       plain_rec (at_xy "restore" x y [T "graph"])]
  end.
Definition wire_rec (w : Z * Z * Z * Z) : rec :=
  match w with (a, o, b, i) => plain_rec [T "#X"; T "connect"; int_text a; int_text o; int_text b; int_text i] end.
Definition sheet_recs (s : sheet) : list rec := match s with mkSheet ts ws => flat_map thing_recs ts ++ map wire_rec ws end.
Definition canvas_rec : rec := plain_rec [T "#N"; T "canvas"; T "0"; T "0"; T "450"; T "300"; T "12"].
(** A patch file. *)
Definition patch_file (brk : nat -> nat -> bool) (s : sheet) : text := pd_file brk (canvas_rec :: sheet_recs s).

(** The objects and connections the compiler should see. *)
Definition expand (r : text * list (list text)) : text * list text := (fst r, commas (T "\,") (snd r)).
Fixpoint object_of (t : thing) : pobj :=
  match t with
  | Comment _ _ ws => OComment (join (T " ") (map held ws))
  | Obj _ _ ws _ => OObject (map held ws)
  | Msg _ _ local remote => OMessage (mkBox local (map expand remote))
  | Sub _ _ name (mkSheet ts ws) => OGraph (match name with [] => T "subpatch" | _ => join (T " ") (map held name) end) (mkGraph (map object_of ts) ws)
  | Table _ _ name chunks => OGraph (T "subpatch") (mkGraph [OTable [held name] (zlen (List.concat chunks)) (map held (List.concat chunks))] [])
  end.
(** The names a slider, button, ... sends to and receives from: two of its arguments; "empty": none. *)
Definition gui_args (ws : list text) : option (nat * nat) :=
  match ws with
  | type :: _ =>
      if existsb (text_eqb type) [T "nbx"; T "vsl"; T "hsl"] then Some (7, 8)%nat
      else if existsb (text_eqb type) [T "vradio"; T "hradio"; T "bng"] then Some (5, 6)%nat
      else if text_eqb type (T "tgl") then Some (3, 4)%nat
      else if existsb (text_eqb type) [T "knob"; T "else/knob"] then Some (6, 7)%nat
      else None
  | [] => None
  end.
Definition plain_obj (ws : list text) : Prop :=
  match ws with [] => False | type :: _ => type <> T "block~" end /\
  match gui_args ws with Some (i, j) => nth_error ws i <> None /\ nth_error ws j <> None | None => True end.
(** A box without such names and without messages for receivers. *)
Definition quiet (t : thing) : Prop :=
  match t with
  | Obj _ _ ws _ => match gui_args ws with Some (i, j) => nth_error ws i = Some (T "empty") /\ nth_error ws j = Some (T "empty") | None => True end
  | Msg _ _ _ remote => remote = []
  | _ => True
  end.
(** [inside]: in a subpatch. *)
Fixpoint thing_ok (inside : bool) (t : thing) : Prop :=
  (if inside then quiet t else True) /\
  match t with
  | Comment _ _ ws => Forall atom_ok ws /\ no_width ws
  | Obj _ _ ws width => Forall atom_ok ws /\ plain_obj ws /\ match width with Some d => digits d | None => no_width ws end
  | Msg _ _ local remote =>
      local <> [] /\ messages_ok local /\ Forall (fun r => word_ok (fst r) /\ messages_ok (snd r)) remote /\
      no_width (box_atoms local remote)
  | Sub _ _ name (mkSheet ts ws) =>
      Forall atom_ok name /\ no_width name /\ hd [] name <> T "@hv_obj" /\
      (fix all l := match l with [] => True | t :: l' => thing_ok true t /\ all l' end) ts
  | Table _ _ name chunks =>
      atom_ok name /\ ~ In 32 name /\ Forall (fun l => Forall atom_ok l /\ no_width l) chunks
  end.
Definition things (s : sheet) := match s with mkSheet ts _ => ts end.
Definition wires (s : sheet) := match s with mkSheet _ ws => ws end.
Definition sheet_ok (s : sheet) : Prop := Forall (thing_ok false) (things s).
(** The number [n] object sends to the name [r] (receives from it): there is a hidden sender (receiver). *)
Definition linked_send (g : pgraph) (n : nat) (r : text) : Prop :=
  exists k, nth_error (g_objs g) k = Some (OSend [r]) /\ In (Z.of_nat n, 0, Z.of_nat k, 0) (g_conns g).
Definition linked_receive (g : pgraph) (n : nat) (r : text) : Prop :=
  exists k, nth_error (g_objs g) k = Some (OReceive [r]) /\ In (Z.of_nat k, 0, Z.of_nat n, 0) (g_conns g).
(** Whatever reaches object [n] from outlet [o] of object [a] also sends [ms] to the receiver [r]. *)
Definition linked_remote (g : pgraph) (a o : Z) (r : text) (ms : list (list text)) : Prop :=
  exists k k', nth_error (g_objs g) k = Some (OMessage (mkBox ms [])) /\ nth_error (g_objs g) k' = Some (OSend [r]) /\
  In (a, o, Z.of_nat k, 0) (g_conns g) /\ In (Z.of_nat k, 0, Z.of_nat k', 0) (g_conns g).
(** A name that stands for itself. *)
Definition name_ok (s : text) : Prop := word_ok s /\ ~ In 36 s.

(** ** Declared arguments: a comment "@hv_arg $2 name type default true" declares argument number 2. *)
Definition declares (t : thing) (n : Z) (name type default : text) (required : bool) : Prop :=
  exists x y, t = Comment x y [T "@hv_arg"; T "$" ++ int_text n; name; type; default; if required then T "true" else T "false"].
Definition is_declaration (t : thing) : bool := match t with Comment _ _ (w :: _) => text_eqb w (T "@hv_arg") | _ => false end.
(** The text of a record without line breaks. *)
Definition rec_text (r : rec) : text := join (T " ") (rec_words r).
Definition unbroken : nat -> nat -> bool := fun _ _ => false.
(** No other text of the patch mentions "@hv_arg" where a reader could take it for a declaration. *)
Definition mentions (t : thing) : Prop := exists r, In r (thing_recs t) /\ contains (T "@hv_arg") (rec_text r) = true.
(** No subpatch (or table) lies inside one with the same position, i.e. the same canvas record. *)
Fixpoint distinct_inside (path : list (Z * Z)) (t : thing) : Prop :=
  match t with
  | Sub x y _ (mkSheet ts _) =>
      ~ In (x, y) path /\ (fix all l := match l with [] => True | t :: l' => distinct_inside ((x, y) :: path) t /\ all l' end) ts
  | Table x y _ _ => ~ In (x, y) path
  | _ => True
  end.

(** ** Abstractions: file [p] contains the objects [fs p]; [l]: the files that are read for it, in order. *)
Inductive reads (fs : files) : text -> list text -> Prop :=
| Reads p names l : fs p = Some names -> reads_all fs names l -> reads fs p (p :: l)
with reads_all (fs : files) : list text -> list text -> Prop :=
| Reads_nil : reads_all fs [] []
| Reads_file n names l l' : fs n <> None -> reads fs n l -> reads_all fs names l' -> reads_all fs (n :: names) (l ++ l')
| Reads_object n names l : fs n = None -> reads_all fs names l -> reads_all fs (n :: names) l.
