(** The OWL generator: c2owl/c2owl.py (make_jdata), c2owl/templates/HeavyOwlConstants.h and HeavyOwl.hpp (constructor, sendCallback,
    buttonChanged, processAudio).  Numbers are exact (rationals); texts are lists of ASCII codes; the MIDI cases are left out (MidiModel.v). *)
From Verif Require Export ArgsModel ExprModel HashModel.
From Coq Require Import String List QArith.
Import ListNotations.
Local Open Scope list_scope.
Open Scope Z_scope.
Notation text := (list Z).

(** The attributes of a receiver or sender: "raw", "min", "max", "default". *)
Record range := mkRange { r_raw : option text; r_min : Q; r_max : Q; r_def : Q }.
Record port := mkPort { p_name : text; p_range : option range }.
(** A tuple of jdata: key, name, 'SEND' or 'RECV', hash, min, max, default, button. *)
Record row := mkRow { w_key : text; w_label : text; w_send : bool; w_hash : Z; w_min : Q; w_max : Q; w_def : option Q; w_button : bool }.
(** OWL_BUTTONS, c2owl.py:19 *)
Definition owl_buttons : list text :=
  map T ["Push"; "B1"; "B2"; "B3"; "B4"; "B5"; "B6"; "B7"; "B8"; "B9"; "B10"; "B11"; "Red"; "Green"]%string.
Definition is_button (k : text) : bool := existsb (text_eqb k) owl_buttons.
(** str.startswith; [Some r]: [r] is the rest *)
Fixpoint after (x s : text) : option text :=
  match x, s with [], _ => Some s | a :: x', b :: s' => if a =? b then after x' s' else None | _, _ => None end.
Definition channel : text := T "Channel-".
(** c2owl.py:33-51 and 53-69: the tuple of a port, if it has one.  A key that is the empty text counts as none; names beginning with "__" are
    skipped for receivers only.  heavy_hash is the hash of the run time for ASCII (C12). *)
Definition port_row (send : bool) (p : port) : list row :=
  let name := p_name p in
  if negb send && match after (T "__") name with Some _ => true | None => false end then [] else
  let label := if send then name ++ T ">" else name in
  match p_range p with
  | Some (mkRange (Some (c :: k)) lo hi d) => [mkRow (c :: k) label send (hv_string_to_hash name) lo hi (Some d) (is_button (c :: k))]
  | _ => match p_range p, send with
         | None, true => []                                     (* obj.args['attributes']: KeyError, l.68 *)
         | _, _ => match after channel name with
                   | Some k => [mkRow k label send (hv_string_to_hash name) 0 1 None (is_button k)]
                   | None => []
                   end
         end
  end.
Definition make_jdata (receivers sends : list port) : list row := flat_map (port_row false) receivers ++ flat_map (port_row true) sends.

(** HeavyOwlConstants.h: (defvalue-minvalue)/(maxvalue-minvalue); [None]: an exception (no default, or equal limits). *)
Definition scaled_default (w : row) : option Q :=
  match w_def w with None => None | Some d => if Qeq_bool (w_max w) (w_min w) then None else Some ((d - w_min w) / (w_max w - w_min w))%Q end.
Definition renders (j : list row) : bool := forallb (fun w => match scaled_default w with Some _ => true | None => false end) j.
(** The macros HV_..._CHANNEL_key: a macro that is defined again has its last value (a warning of the preprocessor). *)
Definition macro (j : list row) (k : text) : option row := find (fun w => text_eqb (w_key w) k) (rev j).
Definition hash_macro (j : list row) (send : bool) (k : text) : option Z :=
  option_map w_hash (find (fun w => text_eqb (w_key w) k && Bool.eqb (w_send w) send) (rev j)).
(** The lines of the loops of the template over [jdata]; [f]: a line, with the row that gives the macros of the key and the hash. *)
Definition lines {A} (j : list row) (which : row -> bool) (f : text -> row -> Z -> A) : list A :=
  flat_map (fun w => match macro j (w_key w), hash_macro j (w_send w) (w_key w) with
                     | Some m, Some h => [f (w_key w) m h]
                     | _, _ => []                                (* does not happen *)
                     end) (filter which j).
(** HeavyOwl.hpp: the constructor; the values setParameterValue is given, in order *)
Definition initial (j : list row) : list (text * option Q) := lines j (fun w => negb (w_button w)) (fun k m _ => (k, scaled_default m)).
(** processAudio: the floats sent to the patch before a block; [value]: getParameterValue *)
Definition process_audio (j : list row) (value : text -> Q) : list (Z * Q) :=
  lines j (fun w => negb (w_send w) && negb (w_button w)) (fun k m h => (h, value k * (w_max m - w_min m) + w_min m)%Q).
Definition b2q (b : bool) : Q := if b then 1%Q else 0%Q.
(** buttonChanged; [lock]: _msgLock.  A switch with two equal cases does not compile ([button_cases] has no duplicates then). *)
Definition button_cases (j : list row) : list text := map w_key (filter (fun w => negb (w_send w) && w_button w) j).
Definition button_changed (j : list row) (lock : bool) (pressed : text -> bool) (bid : text) : list (Z * Q) :=
  if lock then [] else
  match find (fun c => text_eqb (fst c) bid) (lines j (fun w => negb (w_send w) && w_button w)
                (fun k m h => (k, (h, b2q (pressed k) * (w_max m - w_min m) + w_min m)%Q))) with
  | Some c => [snd c]
  | None => []
  end.
(** sendCallback: what is set by a message; [x]: its first element *)
Inductive action := SetParameter (key : text) (v : Q) | SetButton (key : text) (pressed : bool).
Definition send_cases (j : list row) : list Z := lines j w_send (fun _ _ h => h).
Definition send_callback (j : list row) (hash : Z) (x : Q) : list action :=
  match find (fun c => fst c =? hash) (flat_map (fun w => match macro j (w_key w), hash_macro j true (w_key w) with
      | Some m, Some h => let v := ((x - w_min m) / (w_max m - w_min m))%Q in
          [(h, if w_button w then SetButton (w_key w) (negb (Qle_bool v (1#2))) else SetParameter (w_key w) v)]
      | _, _ => [] end) (filter w_send j)) with
  | Some c => [snd c]
  | None => []
  end.
