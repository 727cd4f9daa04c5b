(** Model of the MIDI handling of the generated wrappers: DPF plugins
    (/repo/hvcc/generators/c2dpf/templates/midiInput.cpp, midiOutput.cpp, hostTransportEvents.cpp, HeavyDPF.cpp, HeavyDPF.hpp),
    Daisy firmware (c2daisy/templates/HeavyDaisy.cpp, output only) and web pages (c2js/template/hv_worklet.js; the functions of
    hv_wrapper.js are the same).  Message elements are floats. *)
From Verif Require Export TimeModel HashModel ExprModel.
From Coq Require Export String.
Open Scope list_scope.
Open Scope Z_scope.

(** ** Receivers and senders: HeavyDPF.cpp:13-29, HeavyDaisy.cpp:10-27, hv_worklet.js:365-372 *)
Definition HV_HASH_NOTEIN := 1742961827.         (* 0x67E37CA3 *)
Definition HV_HASH_CTLIN := 1102974876.          (* 0x41BE0F9C *)
Definition HV_HASH_POLYTOUCHIN := 3159560025.    (* 0xBC530F59 *)
Definition HV_HASH_PGMIN := 773759037.           (* 0x2E1EA03D *)
Definition HV_HASH_TOUCHIN := 1429808573.        (* 0x553925BD *)
Definition HV_HASH_BENDIN := 813953271.          (* 0x3083F0F7 *)
Definition HV_HASH_MIDIIN := 345387454.          (* 0x149631BE *)
Definition HV_HASH_MIDIREALTIMEIN := 1878985679. (* 0x6FFF0BCF *)
Definition HV_HASH_NOTEOUT := 220023490.         (* 0x0D1D4AC2 *)
Definition HV_HASH_CTLOUT := 3856834624.         (* 0xE5E2A040 *)
Definition HV_HASH_POLYTOUCHOUT := 3584862673.   (* 0xD5ACA9D1 *)
Definition HV_HASH_PGMOUT := 2270421918.         (* 0x8753E39E *)
Definition HV_HASH_TOUCHOUT := 1198343047.       (* 0x476D4387 *)
Definition HV_HASH_BENDOUT := 3896868883.        (* 0xE8458013 *)
Definition HV_HASH_MIDIOUT := 1695669845.        (* 0x6511DE55 *)

(** One call of sendMessageToReceiverV (HeavyContext.cpp:90-112): receiver, delay in ms, elements. *)
Record call := mkCall { c_recv : Z; c_ms : f64; c_vals : list f32 }.
Fixpoint collect {A} (l : list (outcome A)) : outcome (list A) :=
  match l with [] => Ok [] | a :: l' => let! x := a in let! r := collect l' in Ok (x :: r) end.

(** ** DPF: input *)
(** MidiEvent of DPF (DistrhoPlugin.hpp, not part of the repository): the frame inside the block and four bytes. *)
Record mevent := mkEvent { ev_frame : Z; ev_data : list Z }.
Definition data_at (e : mevent) (i : nat) : Z := nth i (ev_data e) 0.
(** What undefined reads give: [behind j], byte j of the j-th event of an array with at most j events; [no_arg], an argument that
    was not passed to a variadic function.  [None]: a fault. *)
Record stray := mkStray { behind : nat -> option Z; no_arg : option f32 }.
Definition or_ub {A} (o : option A) : outcome A := match o with Some x => Ok x | None => UB end.
(** HeavyDPF.cpp:41-47 *)
Definition mrt_set : list Z := [248; 250; 251; 252; 255].
(** 1000.0*midiEvents->frame/getSampleRate(): the frame of the first event of the array. *)
Definition event_ms (sr : f64) (events : list mevent) : f64 :=
  ddiv (dmul (d_of_int 1000) (d_of_int (match events with e :: _ => ev_frame e | [] => 0 end))) sr.
(** midiInput.cpp:31-81 *)
Definition typical (ms : f64) (command channel data1 data2 : Z) : list call :=
  let c := of_int channel in
  if command =? 128 then [mkCall HV_HASH_NOTEIN ms [of_int data1; of_int 0; c]]
  else if command =? 144 then [mkCall HV_HASH_NOTEIN ms [of_int data1; of_int data2; c]]
  else if command =? 160 then [mkCall HV_HASH_POLYTOUCHIN ms [of_int data2; of_int data1; c]]
  else if command =? 176 then [mkCall HV_HASH_CTLIN ms [of_int data2; of_int data1; c]]
  else if command =? 192 then [mkCall HV_HASH_PGMIN ms [of_int data1; c]]
  else if command =? 208 then [mkCall HV_HASH_TOUCHIN ms [of_int data1; c]]
  else if command =? 224 then [mkCall HV_HASH_BENDIN ms [of_int (Z.lor (Z.shiftl data2 7) data1); c]]
  else [].
(** midiInput.cpp:15-22: the inner [i] hides the outer one. *)
Definition raw_calls (st : stray) (ms : f64) (events : list mevent) (channel : Z) : outcome (list call) :=
  collect (map (fun j => let! b := match nth_error events j with
                                   | Some e => Ok (data_at e j)
                                   | None => or_ub (behind st j)
                                   end in
                         Ok (mkCall HV_HASH_MIDIIN ms [of_int b; of_int channel])) (seq 0 4)).
(** midiInput.cpp:8-82, one event *)
Definition dpf_event (st : stray) (sr : f64) (events : list mevent) (e : mevent) : outcome (list call) :=
  let ms := event_ms sr events in
  let status := data_at e 0 in
  let command := Z.land status 240 in
  let channel := Z.land status 15 in
  let! raw := raw_calls st ms events channel in
  let! rt := if existsb (Z.eqb status) mrt_set
             then let! x := or_ub (no_arg st) in Ok [mkCall HV_HASH_MIDIREALTIMEIN ms [of_int status; x]]
             else Ok [] in
  Ok (raw ++ rt ++ typical ms command channel (data_at e 1) (data_at e 2)).
(** midiInput.cpp:4-83 *)
Definition dpf_input (st : stray) (sr : f64) (events : list mevent) : outcome (list call) :=
  let! l := collect (map (dpf_event st sr events) events) in Ok (List.concat l).

(** ** DPF and Daisy: output *)
(** uint8_t x = f, uint16_t x = f: undefined unless the truncation fits. *)
Definition to_u (limit : Z) (x : f32) : outcome Z :=
  if is_finite x then let z := Btrunc x in if (0 <=? z) && (z <? limit) then Ok z else UB else UB.
Definition to_u8 := to_u 256.
Definition to_u16' := to_u 65536.
(** msg_getFloat, HvMessage.h:120-123 *)
Definition float_of (m : list f32) (i : nat) : outcome f32 := match nth_error m i with Some x => Ok x | None => AssertFail end.
Definition u8_of (m : list f32) (i : nat) : outcome Z := let! x := float_of m i in to_u8 x.
Inductive wrapper := DPF | Daisy.
(** midiOutput.cpp:10-100, HeavyDaisy.cpp:343-443: the bytes of the event that is written, if any. *)
Definition midi_send (w : wrapper) (hash : Z) (m : list f32) : outcome (option (list Z)) :=
  if hash =? HV_HASH_NOTEOUT then
    let! note := u8_of m 0 in let! velocity := u8_of m 1 in let! ch := u8_of m 2 in
    let ch := ch mod 16 in
    Ok (Some [if 0 <? velocity then Z.lor 144 ch else Z.lor 128 ch; note; velocity])
  else if hash =? HV_HASH_CTLOUT then
    let! value := u8_of m 0 in let! cc := u8_of m 1 in let! ch := u8_of m 2 in
    Ok (Some [Z.lor 176 (ch mod 16); cc; value])
  else if hash =? HV_HASH_POLYTOUCHOUT then
    let! value := u8_of m 0 in let! note := u8_of m 1 in let! ch := u8_of m 2 in
    let ch := match w with DPF => ch | Daisy => ch mod 16 end in
    Ok (Some [Z.lor 160 ch; note; value])
  else if hash =? HV_HASH_PGMOUT then
    let! pgm := u8_of m 0 in let! ch := u8_of m 1 in
    Ok (Some [Z.lor 192 (ch mod 16); pgm])
  else if hash =? HV_HASH_TOUCHOUT then
    let! value := u8_of m 0 in let! ch := u8_of m 1 in
    Ok (Some [Z.lor 208 (ch mod 16); value])
  else if hash =? HV_HASH_BENDOUT then
    let! x := float_of m 0 in let! value := to_u16' x in let! ch := u8_of m 1 in
    Ok (Some [Z.lor 224 (ch mod 16); Z.land value 127; Z.land (Z.shiftr value 7) 127])
  else Ok None.
(** midiOutput.cpp:101-120: raw bytes are collected in groups of four.  [count] is the member midiOutCount, which no constructor
    sets (HeavyDPF.hpp:135, HeavyDPF.cpp:83-101); [data] holds the bytes so far. *)
Definition midi_out (count : option Z) (data : list Z) (m : list f32) : outcome (Z * list Z * option (list Z)) :=
  let! n := or_ub count in
  guard! (0 <=? n) && (n <? 4) in
  let! b := u8_of m 0 in
  let data := firstn (Z.to_nat n) data ++ [b] in
  if n <? 3 then Ok (n + 1, data, None) else Ok (0, [], Some data).
Fixpoint midi_out_all (count : option Z) (data : list Z) (ms : list (list f32)) : outcome (list (list Z)) :=
  match ms with
  | [] => Ok []
  | m :: ms' =>
    let! (n, d, o) := midi_out count data m in
    let! r := midi_out_all (Some n) d ms' in
    Ok (match o with Some e => e :: r | None => r end)
  end.

(** ** Web pages *)
(** A byte of the message, passed as a double and stored as a float; undefined becomes NaN, and 0 in bit operations. *)
Definition js_val (o : option Z) : f32 := match o with Some z => of_int z | None => B754_nan end.
Definition js_bits (o : option Z) : Z := match o with Some z => z | None => 0 end.
(** hv_worklet.js:374 *)
Definition js_realtime : list Z := [248; 250; 251; 252; 254; 255].
(** sendMidiIn, hv_worklet.js:227-295 *)
Definition js_input (message : list Z) : list call :=
  let at_ i := nth_error message i in
  let command := Z.land (js_bits (at_ 0%nat)) 240 in
  let channel := of_int (Z.land (js_bits (at_ 0%nat)) 15) in
  let send h vals := [mkCall h dzero vals] in
  let d1 := js_val (at_ 1%nat) in
  let d2 := js_val (at_ 2%nat) in
  send HV_HASH_MIDIIN [d1; channel] ++ send HV_HASH_MIDIIN [d2; channel] ++
  (match at_ 0%nat with
   | Some s => if existsb (Z.eqb s) js_realtime then send HV_HASH_MIDIREALTIMEIN [of_int s; B754_nan] else []
   | None => []
   end) ++
  (if command =? 128 then send HV_HASH_NOTEIN [d1; of_int 0; channel]
   else if command =? 144 then send HV_HASH_NOTEIN [d1; d2; channel]
   else if command =? 160 then send HV_HASH_POLYTOUCHIN [d2; d1; channel]
   else if command =? 176 then send HV_HASH_CTLIN [d2; d1; channel]
   else if command =? 192 then send HV_HASH_PGMIN [d1; channel]
   else if command =? 208 then send HV_HASH_TOUCHIN [d1; channel]
   else if command =? 224 then send HV_HASH_BENDIN [of_int (Z.lor (Z.shiftl (js_bits (at_ 2%nat)) 7) (js_bits (at_ 1%nat))); channel]
   else []).
(** ToInt32 of a double, for the bits that are used here *)
Definition js_int (x : f32) : Z := if is_finite x then Btrunc x else 0.
Definition js_or (k : Z) (x : f32) : f32 := of_int (Z.lor k (Z.rem (js_int x) 16)).
(** sendMidiOut, hv_worklet.js:297-359: the numbers handed to the hook. *)
Definition js_send (name : list Z) (m : list f32) : outcome (list f32) :=
  let is_ (s : string) := if list_eq_dec Z.eq_dec name (T s) then true else false in
  if is_ "__hv_noteout"%string then
    let! note := float_of m 0 in let! velocity := float_of m 1 in let! ch := float_of m 2 in
    Ok [js_or (if fltb fzero velocity then 144 else 128) ch; note; velocity]
  else if is_ "__hv_ctlout"%string then
    let! value := float_of m 0 in let! cc := float_of m 1 in let! ch := float_of m 2 in Ok [js_or 176 ch; cc; value]
  else if is_ "__hv_pgmout"%string then
    let! p := float_of m 0 in let! ch := float_of m 1 in Ok [js_or 192 ch; p]
  else if is_ "__hv_touchout"%string then
    let! p := float_of m 0 in let! ch := float_of m 1 in Ok [js_or 208 ch; p]
  else if is_ "__hv_polytouchout"%string then
    let! value := float_of m 0 in let! note := float_of m 1 in let! ch := float_of m 2 in Ok [js_or 160 ch; note; value]
  else if is_ "__hv_bendout"%string then
    let! value := float_of m 0 in let! ch := float_of m 1 in
    Ok [js_or 224 ch; of_int (Z.land (js_int value) 127); of_int (Z.land (Z.shiftr (js_int value) 7) 127)]
  else if is_ "__hv_midiout"%string then
    let! b := float_of m 0 in let! b1 := float_of m 1 in
    if feqb b (of_int 192) || feqb b (of_int 208) then Ok [b; b1]
    else let! b2 := float_of m 2 in Ok [b; b1; b2]
  else Ok [].

(** ** DPF: transport of the host *)
(** TimePosition of DPF: playing, frame, bbt.valid, bbt.beatsPerMinute *)
Record position := mkPos { playing : bool; frame : Z; bbt_valid : bool; bpm : f64 }.
(** HeavyDPF.hpp:129-132 *)
Record transport := mkTransport { was_playing : bool; next_tick : f64; cycle_start : f64 }.
Definition transport_init : transport := mkTransport false dzero dzero.
Definition dadd (x y : f64) : f64 := Bplus mode_NE x y.
Definition dsub (x y : f64) : f64 := Bminus mode_NE x y.
Definition realtime (ms : f64) (status : Z) : call := mkCall HV_HASH_MIDIREALTIMEIN ms [of_int status; of_int 0].
(** hostTransportEvents.cpp:10-37 *)
Definition transport_events (was : bool) (p : position) : list call :=
  let at0 := frame p =? 0 in
  if playing p then
    (if at0 then [realtime dzero 255] else []) ++
    (if was then [] else (if at0 then [realtime dzero 250] else []) ++ (if at0 then [] else [realtime dzero 251]))
  else if was then [realtime dzero 252] else [].
(** hostTransportEvents.cpp:42-43: floats *)
Definition samples_per_tick (sr : f64) (tempo : f64) : f32 :=
  let samplesPerBeat := narrow (ddiv (dmul (d_of_int 60) sr) tempo) in
  narrow (ddiv (widen samplesPerBeat) (d_of_int 24)).
(** hostTransportEvents.cpp:51-58; [None]: the loop does not end within [fuel] rounds. *)
Fixpoint tick_loop (sr : f64) (spt : f32) (start stop : f64) (fuel : nat) (next : f64) : option (f64 * list call) :=
  if dltb next stop then
    match fuel with
    | O => None
    | S f =>
      let delay := ddiv (dmul (d_of_int 1000) (dsub next start)) sr in
      match tick_loop sr spt start stop f (dadd next (widen spt)) with
      | Some (n, l) => Some (n, (if dleb dzero delay then [realtime delay 248] else []) ++ l)
      | None => None
      end
    end
  else Some (next, []).
(** hostTransportEvents.cpp:4-65 *)
Definition host_transport (fuel : nat) (sr : f64) (t : transport) (p : position) (frames : Z) : option (transport * list call) :=
  let l1 := transport_events (was_playing t) p in
  if playing p && bbt_valid p then
    let stop := dadd (cycle_start t) (d_of_int frames) in
    let spt := samples_per_tick sr (bpm p) in
    if dleb dzero (next_tick t) && dleb dzero (cycle_start t) && dltb (cycle_start t) stop then
      match tick_loop sr spt (cycle_start t) stop fuel (next_tick t) with
      | Some (n, l2) => Some (mkTransport (playing p) n stop, l1 ++ l2)
      | None => None
      end
    else Some (mkTransport (playing p) (next_tick t) stop, l1)
  else Some (mkTransport (playing p) (next_tick t) (cycle_start t), l1).
(** The calls of successive blocks: position and number of frames of each. *)
Fixpoint host_blocks (fuel : nat) (sr : f64) (t : transport) (l : list (position * Z)) : option (transport * list (list call)) :=
  match l with
  | [] => Some (t, [])
  | (p, n) :: l' =>
    match host_transport fuel sr t p n with
    | Some (t1, c) => match host_blocks fuel sr t1 l' with Some (t2, r) => Some (t2, c :: r) | None => None end
    | None => None
    end
  end.

(** ** Print hooks: char buf[64]; a byte that was not written is [None]. *)
Definition buffer := list (option Z).
Definition fresh_buffer : buffer := repeat None 64.
Fixpoint store (buf : buffer) (at_ : nat) (l : list Z) : buffer :=
  match at_, buf with
  | S k, b :: buf' => b :: store buf' k l
  | S _, [] => []
  | O, _ => match l, buf with
            | [], _ => buf
            | x :: l', _ :: buf' => Some x :: store buf' O l'
            | _ :: _, [] => []
            end
  end.
(** strnlen(label, 48) *)
Definition label_len (label : list Z) : nat := Nat.min (List.length label) 48.
(** What strncpy(dst, s, n) and stpncpy(dst, s, n) write. *)
Definition ncpy (s : list Z) (n : nat) : list Z := firstn n s ++ repeat 0 (n - List.length s).
(** printf("%s"), debugMessage, PushBack: the bytes up to the first 0; a byte that was not written, or the end of the buffer,
    is undefined behaviour. *)
Fixpoint c_string (buf : buffer) : outcome (list Z) :=
  match buf with
  | [] => UB
  | None :: _ => UB
  | Some b :: buf' => if b =? 0 then Ok [] else let! r := c_string buf' in Ok (b :: r)
  end.
(** hvPrintHookFunc, HeavyDPF.cpp:70-79: strncpy and strcpy return their first argument. *)
Definition dpf_print (label message : list Z) : outcome (list Z) :=
  let len := label_len label in
  let buf := store fresh_buffer 0 (ncpy label len) in
  let buf := store buf 0 (T " " ++ [0]) in
  c_string (store buf 0 (ncpy message (63 - len))).
(** HeavyDaisy.cpp:509-520, HeavyOwl.hpp:60-68: stpncpy and stpcpy return the end. *)
Definition daisy_print (label message : list Z) : outcome (list Z) :=
  let len := label_len label in
  let buf := store fresh_buffer 0 (ncpy label len) in
  let buf := store buf len (T " " ++ [0]) in
  c_string (store buf (S len) (ncpy message (63 - len))).
