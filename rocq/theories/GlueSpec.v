(** The parameters of a Daisy board: what a user relies on. *)
From Verif Require Export GlueModel.
From Coq Require Import String List.
Import ListNotations.
Local Open Scope list_scope.
Open Scope Z_scope.

(** [a] is the first element of [l] with the property. *)
Definition first_such {A} (P : A -> Prop) (l : list A) (a : A) : Prop := exists l1 l2, l = l1 ++ a :: l2 /\ P a /\ forall b, In b l1 -> ~ P b.
(** The last one. *)
Definition last_such {A} (P : A -> Prop) (l : list A) (a : A) : Prop := exists l1 l2, l = l1 ++ a :: l2 /\ P a /\ forall b, In b l2 -> ~ P b.
Definition occurs_in (x s : text) : Prop := exists a b, s = a ++ x ++ b.
Definition cv (c : component) : Prop := c_kind c = T "CVOuts".
(** The names a component goes by on the board: its variants; a CV output has its own name only. *)
Definition goes_by (c : component) (name : text) : Prop :=
  (cv c /\ name = c_name c) \/ (~ cv c /\ exists m, In m (c_map c) /\ format (m_name m) (c_name c) = name).
Definition owner (cs : list component) (name : text) (c : component) : Prop := first_such (fun c => goes_by c name) cs c.
(** The mapping of the component that a name selects. *)
Definition selects (c : component) (name : text) (m : mapping) : Prop :=
  first_such (fun m => (cv c /\ occurs_in (format (m_name m) []) (c_name c)) \/ (~ cv c /\ format (m_name m) (c_name c) = name)) (c_map c) m.
(** An input can be read from the board. *)
Definition readable (cs : list component) (name : text) : Prop :=
  exists c m d g, owner cs name c /\ ~ cv c /\ c_dir c = Some d /\ d <> T "output" /\ selects c name m /\ m_get m = Some g.
(** An output can be written to it. *)
Definition writable (cs : list component) (name : text) : Prop :=
  exists c m s, owner cs name c /\ (cv c \/ exists d, c_dir c = Some d /\ d <> T "input") /\ selects c name m /\ m_set m = Some s.
(** A character is the small letter of another, or the same. *)
Definition small_of (a b : Z) : Prop := (65 <= a <= 90 /\ b = a + 32) \/ (~ 65 <= a <= 90 /\ b = a).
(** [n] is a variant of the alias [a] (of a component that is no CV output), written [low]. *)
Definition alias_variant (al : aliases) (cs : list component) (low n : text) : Prop :=
  exists a t c m, In (a, t) al /\ occurs_in a low /\ first_such (fun c => c_name c = t) cs c /\ ~ cv c /\ In m (c_map c)
    /\ format (m_name m) a = low /\ format (m_name m) t = n.
(** A board like Daisy Pod: two knobs, a switch, a led and a CV output. *)
Definition plain : list part := [Name].
Definition reading (f : list part) (g : string) : mapping := mkMapping f None (Some (T g)) None.
Definition knob (n : string) : component := mkComponent (T "AnalogControl") (T n) (Some (T "in")) false [reading plain "{name}.Value()"].
Definition switch (n : string) : component :=
  mkComponent (T "Switch") (T n) (Some (T "in")) false [reading [Name; Txt (T "_press")] "{name}.Pressed()"; reading plain "{name}.RisingEdge()"].
Definition led (n : string) : component := mkComponent (T "Led") (T n) (Some (T "out")) false [mkMapping plain None None (Some (T "{name}.Set({value})"))].
Definition gate (n : string) : component := mkComponent (T "GateOut") (T n) (Some (T "out")) false [mkMapping plain (Some (T "hook")) None (Some (T "{name}.Write({value})"))].
Definition cvout (n : string) : component := mkComponent (T "CVOuts") (T n) (Some (T "out")) false
  [mkMapping [Name; Txt (T "1")] (Some (T "main")) None (Some (T "ONE")); mkMapping [Name; Txt (T "2")] (Some (T "main")) None (Some (T "TWO"))].
Definition board : list component := [knob "knob1"; knob "knob2"; cvout "cvout1"; cvout "cvout2"; gate "gateout"; led "led1"; switch "sw1"].
Definition board_aliases : aliases :=
  [(T "switch", T "sw1"); (T "button", T "sw1"); (T "switch1", T "sw1"); (T "knob", T "knob1"); (T "ctrl", T "knob1"); (T "ctrl2", T "knob2"); (T "led", T "led1")]%list.

(** The sample rates of the Daisy. *)
Definition rates : list Z := [8000; 16000; 32000; 48000; 96000].
