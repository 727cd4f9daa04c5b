(** Reading Pd files: the properties. *)
From Coq Require Import Permutation Sorting.Sorted Lia String.
From Verif Require Import RecvModel RecvSpec.
From Verif Require Import ParseModel ParseSpec ParseProofs ParseProofs2 ParseProofs3 ParseProofs4 ParseProofs5 ParseProofs6 ParseProofs7 ParseProofs8 ParseProofs9.
Local Open Scope list_scope.
Local Open Scope Z_scope.

Ltac atoms := repeat (constructor; [lit_atom|]); constructor.
Ltac lit_wordok := split; [discriminate|]; let I := fresh in intros ? I; cbn in I; repeat (destruct I as [<-|I]; [repeat split; (reflexivity || discriminate)|]); destruct I.
Ltac wordsok := repeat (constructor; [lit_wordok|]); constructor.
Lemma no_width_check l : match rev l with _ :: f :: _ => negb (text_eqb f (T "f")) | _ => true end = true -> no_width l.
Proof.
  intros H l' a d ->. rewrite rev_app_distr in H. cbn [rev app] in H. rewrite text_eqb_refl in H. discriminate.
Qed.
Ltac nowidth := apply no_width_check; vm_compute; reflexivity.

(** ** C165: records *)
(** Whatever the breaks of lines, and with the ends of lines of Windows too, every record is read as its atoms; a width at the
    end of a record is dropped. *)
Theorem records_read : forall brk l, Forall rec_ok l ->
  map split_line (records (pd_file brk l)) = map (fun r => map held (r_atoms r)) l /\
  records (to_crlf (pd_file brk l)) = records (pd_file brk l).
Proof.
  intros brk l F. split; [apply file_words; auto|]. apply records_of_crlf. apply put_recs_cr. revert F. apply Forall_impl. apply rec_fwords.
Qed.
Print Assumptions records_read.
(** A symbol with a space, a dollar argument, a semicolon and a width. *)
Definition sample : list rec :=
  [canvas_rec; mkRec [T "#X"; T "obj"; T "10"; T "20"; T "symbol"; T "a b"; T "$1-x"; T "x;"] (Some (T "12")); plain_rec [T "#X"; T "msg"; T "0"; T "0"; T ","]].
Example sample_ok : Forall rec_ok sample.
Proof.
  constructor; [apply canvas_ok|]. constructor; [|constructor; [|constructor]].
  - split; [discriminate|]. split; [atoms|]. split; [discriminate|]. change (T "12") with [49; 50]. constructor; [lia|]. constructor; [lia|constructor].
  - split; [discriminate|]. split; [atoms|nowidth].
Qed.
Example sample_file : pd_file (fun _ k => Nat.eqb k 4) sample = T "#N canvas 0 0 450
300 12;
#X obj 10 20 symbol
a\ b \$1-x x\;, f 12;
#X msg 0 0 \,;
".
Proof. reflexivity. Qed.

(** ** C166: records that are not *)
(** A record whose last atom ends with a backslash takes the next record with it; a record that ends with the atoms
    "," "f" and digits loses them. *)
Theorem records_refuted :
  (exists a l, Forall (fun r => ~ In 10 r /\ ~ In 13 r /\ r <> []) (a ++ l) /\
     map split_line (records (pd_file unbroken [plain_rec a; plain_rec l])) <> map (map held) [a; l] /\
     List.length (records (pd_file unbroken [plain_rec a; plain_rec l])) = 1%nat) /\
  (exists l, Forall atom_ok l /\ map split_line (records (pd_file unbroken [plain_rec l])) = [[T "#X"; T "msg"; T "0"; T "0"; T "1"; T "\"]] /\
     map held l = [T "#X"; T "msg"; T "0"; T "0"; T "1"; T "\,"; T "f"; T "10"]).
Proof.
  split.
  - exists [T "#X"; T "text"; T "0"; T "0"; T "C:\"], [T "#X"; T "obj"; T "0"; T "0"; T "bang"]. split; [|split].
    + repeat (constructor; [split; [lit|split; [lit|discriminate]]|]). constructor.
    + vm_compute. discriminate.
    + reflexivity.
  - exists [T "#X"; T "msg"; T "0"; T "0"; T "1"; T ","; T "f"; T "10"]. split; [atoms|]. split; reflexivity.
Qed.
Print Assumptions records_refuted.

(** ** C167: message boxes *)
(** The messages of a box, and the messages it has for receivers, are those that were written. *)
Theorem message_box_read : forall local remote, local <> [] -> messages_ok local -> Forall (fun r => word_ok (fst r) /\ messages_ok (snd r)) remote ->
  read_box (join (T " ") (map held (box_atoms local remote))) = Some (mkBox local (map expand remote)) /\
  forall r ms, In (r, ms) remote -> In (r, snd (expand (r, ms))) (map expand remote) /\ read_box (join (T " ") (snd (expand (r, ms)))) = Some (mkBox ms []).
Proof.
  intros local remote N M R. split; [apply box_read; auto|]. intros r ms I. split.
  - apply in_map_iff. exists (r, ms). auto.
  - apply box_read_again. rewrite Forall_forall in R. apply (R _ I).
Qed.
Print Assumptions message_box_read.
Example message_box_case : messages_ok [[T "set"; T "$1"]; [T "bang"]] /\ word_ok (T "dest") /\
  join (T " ") (map held (box_atoms [[T "set"; T "$1"]; [T "bang"]] [(T "dest", [[T "1"]; [T "2"]])])) = T "set \$1 \, bang \; dest 1 \, 2".
Proof. split; [|split; [lit_wordok|reflexivity]]. constructor; [split; [discriminate|wordsok]|]. constructor; [split; [discriminate|wordsok]|constructor]. Qed.

(** ** C168: message boxes that are not *)
(** A box with messages for receivers only sends the first of them to its outlet, name and all; a symbol with a space in it
    becomes two. *)
Theorem message_box_refuted :
  (exists remote, Forall (fun r => word_ok (fst r) /\ messages_ok (snd r)) remote /\ remote = [(T "dest", [[T "1"]])] /\
     read_box (join (T " ") (map held (box_atoms [] remote))) = Some (mkBox [[T "dest"; T "1"]] [])) /\
  (exists m, Forall atom_ok m /\ m = [T "symbol"; T "a b"] /\ read_box (join (T " ") (map held (box_atoms [m] []))) = Some (mkBox [[T "symbol"; T "a"; T "b"]] [])).
Proof.
  split.
  - eexists. split; [|split; [reflexivity|reflexivity]]. constructor; [|constructor]. split; [lit_wordok|]. constructor; [split; [discriminate|wordsok]|constructor].
  - eexists. split; [|split; reflexivity]. atoms.
Qed.
Print Assumptions message_box_refuted.

(** ** C169: patches *)
(** Objects, comments, message boxes, subpatches to any depth and tables: all are read, in order and with their arguments, and so
    are the connections.  What is added comes after them, and nothing is if no object names a sender or receiver. *)
Theorem patch_is_read : forall brk s, sheet_ok s -> exists hidden hidden_wires,
  read_file (patch_file brk s) = Some (mkGraph (map object_of (things s) ++ hidden) (wires s ++ hidden_wires)) /\
  (Forall quiet (things s) -> hidden = [] /\ hidden_wires = []).
Proof. exact patch_read. Qed.
Print Assumptions patch_is_read.
Definition sample_sheet : sheet := mkSheet
  [Obj 10 10 [T "inlet"] None; Comment 0 0 [T "hello"; T "world"];
   Sub 20 20 [T "filter"] (mkSheet [Obj 10 10 [T "inlet"] None; Obj 10 50 [T "outlet"] (Some (T "5")); Table (-5) 7 (T "$0-tab") [[T "0"; T "1"]; [T "0.5"]]] [(0, 0, 1, 0)]);
   Obj 10 40 [T "print"; T "a"] None]
  [(0, 0, 2, 0); (2, 0, 3, 0)].
Example sample_sheet_ok : sheet_ok sample_sheet /\ Forall quiet (things sample_sheet).
Proof.
  split.
  - constructor; [|constructor; [|constructor; [|constructor; [|constructor]]]].
    + split; [exact I|]. split; [atoms|]. split; [split; [discriminate|exact I]|nowidth].
    + split; [exact I|]. split; [atoms|nowidth].
    + apply thing_ok_sub. split; [exact I|]. split; [atoms|]. split; [nowidth|]. split; [discriminate|].
      constructor; [|constructor; [|constructor; [|constructor]]].
      * split; [exact I|]. split; [atoms|]. split; [split; [discriminate|exact I]|nowidth].
      * split; [exact I|]. split; [atoms|]. split; [split; [discriminate|exact I]|]. split; [discriminate|]. change (T "5") with [53]. constructor; [lia|constructor].
      * split; [exact I|]. split; [lit_atom|]. split; [lit|]. constructor; [split; [atoms|nowidth]|]. constructor; [split; [atoms|nowidth]|constructor].
    + split; [exact I|]. split; [atoms|]. split; [split; [discriminate|exact I]|nowidth].
  - repeat (constructor; [exact I|]). constructor.
Qed.
Example sample_sheet_read : read_file (patch_file (fun _ k => Nat.eqb k 2) sample_sheet) = Some (mkGraph
  [OObject [T "inlet"]; OComment (T "hello world");
   OGraph (T "filter") (mkGraph [OObject [T "inlet"]; OObject [T "outlet"]; OGraph (T "subpatch") (mkGraph [OTable [T "\$0-tab"] 3 [T "0"; T "1"; T "0.5"]] [])] [(0, 0, 1, 0)]);
   OObject [T "print"; T "a"]] [(0, 0, 2, 0); (2, 0, 3, 0)]).
Proof. vm_compute. reflexivity. Qed.

(** ** C170: names of sliders, buttons, ... *)
(** Outside subpatches an object that names a receiver sends to it, and one that names a sender gets what is sent to that name. *)
Theorem gui_names_linked : forall brk s g n x y ws w i j, sheet_ok s -> read_file (patch_file brk s) = Some g ->
  nth_error (things s) n = Some (Obj x y ws w) -> gui_args ws = Some (i, j) ->
  (forall r, nth_error ws i = Some r -> r <> T "empty" -> name_ok r -> linked_send g n r) /\
  (forall r, nth_error ws j = Some r -> r <> T "empty" -> name_ok r -> linked_receive g n r).
Proof. intros brk s g n x y ws w i j H G N A. split; intros; [eapply gui_send_linked|eapply gui_recv_linked]; eauto. Qed.
Print Assumptions gui_names_linked.
Definition toggle : thing := Obj 10 10 [T "tgl"; T "15"; T "0"; T "out"; T "in"; T "empty"; T "0"; T "0"; T "0"; T "0"] None.
Example gui_names_case : sheet_ok (mkSheet [toggle] []) /\ gui_args [T "tgl"; T "15"; T "0"; T "out"; T "in"] = Some (3, 4)%nat /\
  read_file (patch_file unbroken (mkSheet [toggle] [])) = Some (mkGraph [object_of toggle; OSend [T "out"]; OReceive [T "in"]] [(0, 0, 1, 0); (2, 0, 0, 0)]).
Proof.
  split; [|split; [reflexivity|vm_compute; reflexivity]]. constructor; [|constructor]. split; [exact I|]. split; [atoms|]. split; [split; [discriminate|split; discriminate]|nowidth].
Qed.

(** ** C171: messages for receivers *)
(** Outside subpatches whatever comes to a message box from a first outlet sends its messages for receivers. *)
Theorem remote_messages_linked : forall brk s g n x y local remote r ms a, sheet_ok s -> read_file (patch_file brk s) = Some g ->
  nth_error (things s) n = Some (Msg x y local remote) -> In (r, ms) remote -> In (a, 0, Z.of_nat n, 0) (wires s) -> linked_remote g a 0 r ms.
Proof. exact remote_linked. Qed.
Print Assumptions remote_messages_linked.
Definition msg_box : thing := Msg 10 10 [[T "1"]] [(T "dest", [[T "2"]; [T "3"]])].
Lemma msg_box_ok : thing_ok false msg_box.
Proof.
  split; [exact I|]. split; [discriminate|]. split; [constructor; [split; [discriminate|wordsok]|constructor]|]. split.
  - constructor; [|constructor]. split; [lit_wordok|]. constructor; [split; [discriminate|wordsok]|]. constructor; [split; [discriminate|wordsok]|constructor].
  - nowidth.
Qed.
Lemma plain_ok b x y ws : Forall atom_ok ws -> no_width ws -> ws <> [] -> hd [] ws <> T "block~" -> gui_args ws = None -> thing_ok b (Obj x y ws None).
Proof.
  intros A W N B G. split; [destruct b; [unfold quiet; rewrite G|]; exact I|]. split; auto. split; auto. split; [|rewrite G; exact I]. destruct ws; [congruence|exact B].
Qed.
Example remote_messages_case : sheet_ok (mkSheet [Obj 0 0 [T "bang"] None; msg_box] [(0, 0, 1, 0)]) /\
  read_file (patch_file unbroken (mkSheet [Obj 0 0 [T "bang"] None; msg_box] [(0, 0, 1, 0)])) =
  Some (mkGraph [OObject [T "bang"]; object_of msg_box; OMessage (mkBox [[T "2"]; [T "3"]] []); OSend [T "dest"]] [(0, 0, 1, 0); (0, 0, 2, 0); (2, 0, 3, 0)]).
Proof.
  split; [|vm_compute; reflexivity]. constructor; [|constructor; [apply msg_box_ok|constructor]]. apply plain_ok; try discriminate; [atoms|nowidth|reflexivity].
Qed.

(** ** C172: names and messages that are not linked *)
(** In a subpatch neither happens; and messages for receivers are sent by the sender's first outlet, whichever was connected. *)
Theorem links_refuted :
  (exists s, things s = [Sub 0 0 [T "x"] (mkSheet [toggle] [])] /\
     read_file (patch_file unbroken s) = Some (mkGraph [OGraph (T "x") (mkGraph [object_of toggle] [])] [])) /\
  (exists s, things s = [Sub 0 0 [T "x"] (mkSheet [Obj 0 0 [T "bang"] None; msg_box] [(0, 0, 1, 0)])] /\
     read_file (patch_file unbroken s) = Some (mkGraph [OGraph (T "x") (mkGraph [OObject [T "bang"]; object_of msg_box] [(0, 0, 1, 0)])] [])) /\
  (exists s g, sheet_ok s /\ wires s = [(0, 1, 1, 0)] /\ nth_error (things s) 1 = Some msg_box /\ read_file (patch_file unbroken s) = Some g /\
     linked_remote g 0 0 (T "dest") [[T "2"]; [T "3"]] /\ ~ linked_remote g 0 1 (T "dest") [[T "2"]; [T "3"]]).
Proof.
  split; [|split].
  - exists (mkSheet [Sub 0 0 [T "x"] (mkSheet [toggle] [])] []). split; [reflexivity|]. vm_compute. reflexivity.
  - exists (mkSheet [Sub 0 0 [T "x"] (mkSheet [Obj 0 0 [T "bang"] None; msg_box] [(0, 0, 1, 0)])] []). split; [reflexivity|]. vm_compute. reflexivity.
  - exists (mkSheet [Obj 0 0 [T "select"; T "1"] None; msg_box] [(0, 1, 1, 0)]),
      (mkGraph [OObject [T "select"; T "1"]; object_of msg_box; OMessage (mkBox [[T "2"]; [T "3"]] []); OSend [T "dest"]] [(0, 1, 1, 0); (0, 0, 2, 0); (2, 0, 3, 0)]).
    split; [constructor; [|constructor; [apply msg_box_ok|constructor]]; apply plain_ok; try discriminate; [atoms|nowidth|reflexivity]|]. split; [reflexivity|]. split; [reflexivity|].
    split; [vm_compute; reflexivity|]. split.
    + exists 2%nat, 3%nat. cbn. auto 10.
    + intros (k & k' & A & B & C & D). cbn in C. destruct C as [C|[C|[C|[]]]]; try discriminate.
      assert (k = 1%nat) by (injection C; lia). subst. cbn in A. discriminate.
Qed.
Print Assumptions links_refuted.

(** ** C173: tables *)
(** A table with fewer values than declared keeps them without the zeros that are announced, one with more gets zeros besides;
    a second table in the same window fails. *)
Definition table_file (arrays : list rec) : text :=
  pd_file unbroken (canvas_rec :: plain_rec [T "#N"; T "canvas"; T "0"; T "0"; T "450"; T "300"; T "sub"; T "0"] :: arrays ++ [plain_rec (at_xy "restore" 0 0 [T "graph"])]).
Definition array_recs (name size : string) (values : list text) : list rec :=
  [plain_rec [T "#X"; T "array"; T name; T size; T "float"; T "3"]; plain_rec ([T "#A"; T "0"] ++ values)].
Theorem table_sizes_refuted :
  read_file (table_file (array_recs "t" "5" [T "1"; T "2"])) = Some (mkGraph [OGraph (T "subpatch") (mkGraph [OTable [T "t"] 5 [T "1"; T "2"]] [])] []) /\
  read_file (table_file (array_recs "t" "2" [T "1"; T "2"; T "3"])) = Some (mkGraph [OGraph (T "subpatch") (mkGraph [OTable [T "t"] 3 [T "1"; T "2"; T "3"; T "0.0"]] [])] []) /\
  read_file (table_file (array_recs "t" "2" [T "1"; T "2"] ++ array_recs "u" "1" [T "1"])) = None.
Proof. split; [|split]; vm_compute; reflexivity. Qed.
Print Assumptions table_sizes_refuted.

(** ** C174: declared arguments *)
(** In a file without broken lines all comments that declare an argument, and nothing else, are found, in order. *)
Theorem arguments_found : forall s, sheet_ok s -> Forall (distinct_inside []) (things s) ->
  Forall (fun t => if is_declaration t then exists n name type default required, declares t n name type default required /\ 0 <= n /\ name_ok name /\ name_ok type /\ name_ok default
                   else ~ mentions t) (things s) ->
  exists lines, file_hv_args (patch_file unbroken s) = Some lines /\
    Forall2 (fun t li => exists n name type default required, declares t n name type default required /\ read_arg li = Some (n - 1, name, type, default, required))
            (filter is_declaration (things s)) lines.
Proof. exact args_found. Qed.
Print Assumptions arguments_found.
Definition arg_sheet : sheet := mkSheet
  [Comment 0 0 [T "@hv_arg"; T "$1"; T "freq"; T "float"; T "440"; T "false"];
   Table 20 20 (T "tab") [[T "0"; T "1"]]; Obj 10 40 [T "print"; T "a"] None;
   Comment 5 0 [T "@hv_arg"; T "$2"; T "gain"; T "float"; T "1"; T "true"]] [].
Example arg_sheet_ok : sheet_ok arg_sheet /\ Forall (distinct_inside []) (things arg_sheet) /\
  Forall (fun t => if is_declaration t then exists n name type default required, declares t n name type default required /\ 0 <= n /\ name_ok name /\ name_ok type /\ name_ok default
                   else ~ mentions t) (things arg_sheet).
Proof.
  assert (NM : forall t, (forall r, In r (thing_recs t) -> contains (T "@hv_arg") (rec_text r) = false) -> ~ mentions t) by (intros t H (r & I & E); rewrite (H r I) in E; discriminate).
  split; [|split].
  - constructor; [|constructor; [|constructor; [|constructor; [|constructor]]]].
    + split; [exact I|]. split; [atoms|nowidth].
    + split; [exact I|]. split; [lit_atom|]. split; [lit|]. constructor; [split; [atoms|nowidth]|constructor].
    + apply plain_ok; try discriminate; [atoms|nowidth|reflexivity].
    + split; [exact I|]. split; [atoms|nowidth].
  - constructor; [exact I|]. constructor; [intros []|]. constructor; [exact I|]. constructor; [exact I|constructor].
  - assert (NO : forall w, word_ok (T w) -> ~ In 36 (T w) -> name_ok (T w)) by (split; auto).
    constructor; [|constructor; [|constructor; [|constructor; [|constructor]]]]; cbn [is_declaration].
    + change (text_eqb _ _) with true. cbv iota. exists 1, (T "freq"), (T "float"), (T "440"), false. split; [exists 0, 0; reflexivity|]. split; [lia|]. split; [|split]; (apply NO; [lit_wordok|lit]).
    + apply NM. intros r R. cbn in R. repeat (destruct R as [<-|R]; [vm_compute; reflexivity|]). destruct R.
    + apply NM. intros r R. cbn in R. repeat (destruct R as [<-|R]; [vm_compute; reflexivity|]). destruct R.
    + change (text_eqb _ _) with true. cbv iota. exists 2, (T "gain"), (T "float"), (T "1"), true. split; [exists 5, 0; reflexivity|]. split; [lia|]. split; [|split]; (apply NO; [lit_wordok|lit]).
Qed.
Example arg_sheet_read : option_map (map read_arg) (file_hv_args (patch_file unbroken arg_sheet)) =
  Some [Some (0, T "freq", T "float", T "440", false); Some (1, T "gain", T "float", T "1", true)].
Proof. vm_compute. reflexivity. Qed.

(** ** C175: declarations that are not found *)
(** If the line is broken the declaration cannot be read; if the comment has a width its argument is not required any more; and
    subpatches with the same first line, three deep, make the search fail. *)
Definition deep : sheet := mkSheet [Sub 0 0 [T "a"] (mkSheet [Sub 0 0 [T "b"] (mkSheet [Sub 0 0 [T "c"] (mkSheet [] [])] [])] [])] [].
Definition required_arg : list text := at_xy "text" 0 0 [T "@hv_arg"; T "$1"; T "freq"; T "float"; T "440"; T "true"].
Theorem arguments_refuted :
  option_map (map read_arg) (file_hv_args (pd_file (fun i k => Nat.eqb i 1 && Nat.eqb k 8) [canvas_rec; plain_rec required_arg])) = Some [None] /\
  option_map (map read_arg) (file_hv_args (pd_file unbroken [canvas_rec; mkRec required_arg (Some (T "40"))])) = Some [Some (0, T "freq", T "float", T "440", false)] /\
  (sheet_ok deep /\ file_hv_args (patch_file unbroken deep) = None).
Proof.
  split; [vm_compute; reflexivity|]. split; [vm_compute; reflexivity|]. split; [|vm_compute; reflexivity].
  assert (S : forall b n ts, atom_ok (T n) -> T n <> T "@hv_obj" -> Forall (thing_ok true) ts -> thing_ok b (Sub 0 0 [T n] (mkSheet ts []))).
  { intros b n ts A N F. apply thing_ok_sub. split; [destruct b; exact I|]. split; [constructor; auto; constructor|]. split; [nowidth|]. split; auto. }
  constructor; [|constructor]. apply S; [lit_atom|discriminate|]. constructor; [|constructor]. apply S; [lit_atom|discriminate|]. constructor; [|constructor].
  apply S; [lit_atom|discriminate|]. constructor.
Qed.
Print Assumptions arguments_refuted.

(** ** C176: $0 *)
(** Every instance of an abstraction is read, in order, and gets its own number. *)
Theorem instances_have_their_own_number : forall fs p l, fs [] = None -> reads fs p l -> exists n, forall depth zero, (n <= depth)%nat ->
  map fst (fst (load depth fs p zero)) = l /\ NoDup (map snd (fst (load depth fs p zero))) /\
  forall i, (i < List.length l)%nat -> nth_error (map snd (fst (load depth fs p zero))) i = Some (zero + 1 + Z.of_nat i).
Proof.
  intros fs p l N R. destruct (instances_numbered fs p l N R) as [n H]. exists n. intros depth zero L. destruct (H depth zero L) as (A & _ & B).
  split; [exact A|]. split; [|exact B]. apply NoDup_nth_error. intros i j Li E.
  assert (Le : List.length (map snd (fst (load depth fs p zero))) = List.length l) by (rewrite map_length, <- A, map_length; reflexivity).
  rewrite Le in Li. rewrite (B i Li) in E. symmetry in E. assert (Lj : (j < List.length l)%nat) by (rewrite <- Le; apply nth_error_Some; congruence).
  rewrite (B j Lj) in E. injection E. lia.
Qed.
Print Assumptions instances_have_their_own_number.
Definition three_files : files := fun n => if text_eqb n (T "main") then Some [T "voice"; T "osc~"; T "voice"] else if text_eqb n (T "voice") then Some [T "env"] else
  if text_eqb n (T "env") then Some [] else None.
Example three_files_read : three_files [] = None /\ reads three_files (T "main") [T "main"; T "voice"; T "env"; T "voice"; T "env"].
Proof.
  split; [reflexivity|]. assert (E : reads three_files (T "env") [T "env"]) by (apply (Reads _ _ []); [reflexivity|constructor]).
  assert (V : reads three_files (T "voice") [T "voice"; T "env"]).
  { apply (Reads _ _ [T "env"]); [reflexivity|]. change [T "env"] with ([T "env"] ++ []) at 2. apply Reads_file; [discriminate|exact E|constructor]. }
  apply (Reads _ _ [T "voice"; T "osc~"; T "voice"]); [reflexivity|]. change [T "voice"; T "env"; T "voice"; T "env"] with ([T "voice"; T "env"] ++ [T "voice"; T "env"] ++ []).
  apply Reads_file; [discriminate|exact V|]. apply Reads_object; [reflexivity|]. apply Reads_file; [discriminate|exact V|constructor].
Qed.

(** ** C177: an abstraction that contains itself *)
(** It is read again and again, as often as Python's stack allows; if it contains itself twice, 2^depth times. *)
Theorem recursion_refuted : forall depth zero,
  List.length (fst (load depth (itself 1) (T "a") zero)) = depth /\ S (List.length (fst (load depth (itself 2) (T "a") zero))) = (2 ^ depth)%nat.
Proof. intros. split; [apply itself_once|apply itself_twice]. Qed.
Print Assumptions recursion_refuted.

(** ** C178: the order of receivers *)
(** As in Pd the deeper receivers of a name get a message first, those on one level in the order of their creation -- as long as
    the receivers of the patch are numbered within 1000. *)
Theorem receivers_in_pd_order : forall places rs p k m, compile rs = Some p ->
  Forall2 (fun place r => r_prio r = recv_priority (fst place) (snd place)) places rs ->
  Forall (fun place => m <= snd place < m + 1000) places -> NoDup (map snd places) ->
  exists order, Permutation order (filter (fun x => name_eqb k (r_name (snd x))) (combine places rs)) /\
    StronglySorted (fun a b => fst (fst b) < fst (fst a) \/ (fst (fst a) = fst (fst b) /\ snd (fst a) < snd (fst b))) order /\
    send_calls p k = flat_map (fun x => r_conns (snd x)) order.
Proof. exact pd_order. Qed.
Print Assumptions receivers_in_pd_order.
Definition recv_at (depth instance : Z) : receiver := mkRecv [97] (recv_priority depth instance) None [] [(instance, 0)].
Example receivers_case : exists p, compile [recv_at 1 1; recv_at 2 2; recv_at 2 3] = Some p /\ send_calls p [97] = [(2, 0); (3, 0); (1, 0)].
Proof. eexists. split; [vm_compute; reflexivity|]. reflexivity. Qed.

(** ** C179: more than 1000 receivers *)
Theorem receiver_order_refuted : exists p, compile [recv_at 1 1; recv_at 2 1002] = Some p /\ send_calls p [97] = [(1, 0); (1002, 0)].
Proof. eexists. split; [vm_compute; reflexivity|]. reflexivity. Qed.
Print Assumptions receiver_order_refuted.
