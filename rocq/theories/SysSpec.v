(** Asking the patch about itself: what a user relies on. *)
From Verif Require Export SysModel MessageSpec.
From Coq Require Import String.

(** A value is this word: the symbol itself, or its hash. *)
Definition says (v : value) (w : string) : Prop :=
  match v with
  | VSymbol s => s = word w
  | VHash h => h = hv_string_to_hash (word w)
  | _ => False
  end.
(** The number a value is looked up by. *)
Definition key (v : value) : Z :=
  match v with VBang => 4294967295 | VFloat b => b | VSymbol s => hv_string_to_hash s | VHash h => h end.
(** The table that a value names. *)
Definition names (c : ctx) (v : value) (t : tab) : Prop := hv_table_get c (key v) = Some t.

(** The answer to a question asked at time [ts]. *)
Inductive answer (c : ctx) (ts : Z) : list value -> f32 -> Prop :=
| a_rate v vs : says v "samplerate" -> answer c ts (v :: vs) (narrow (x_rate c))
| a_in v vs : says v "numInputChannels" -> answer c ts (v :: vs) (of_int (x_in c))
| a_out v vs : says v "numOutputChannels" -> answer c ts (v :: vs) (of_int (x_out c))
| a_time v vs : says v "currentTime" -> answer c ts (v :: vs) (of_int ts)
| a_length v n q vs t : says v "table" -> names c n t -> says q "length" -> answer c ts (v :: n :: q :: vs) (of_int (tb_length t))
| a_size v n q vs t : says v "table" -> names c n t -> says q "size" -> answer c ts (v :: n :: q :: vs) (of_int (tb_size t))
| a_head v n q vs t : says v "table" -> names c n t -> says q "head" -> answer c ts (v :: n :: q :: vs) (of_int (tb_head t)).

(** A question about a table that stops before it is complete: no name, or the name of a table
    and no question. *)
Definition cut_short (c : ctx) (vs : list value) : Prop :=
  (exists v, vs = [v] /\ says v "table") \/ (exists v n t, vs = [v; n] /\ says v "table" /\ names c n t).

(** What a table head object is to answer to one message: the head its table has now, to a bang. *)
Definition head_answer (c : ctx) (k : Z) (ts : Z) (vs : list value) : option (Z * f32) :=
  match vs, hv_table_get c k with
  | VBang :: _, Some t => Some (ts, of_int (tb_head t))
  | _, _ => None
  end.
