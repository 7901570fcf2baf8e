(** What the theorems on the websocket handler say. *)
From Coq Require Import List Arith NArith Bool.
From Verif Require Import Util Server ServerSpec Pump.
Import ListNotations.

Section PumpSpec.
Context {A : app} {text : Type}.

(** The text frames among the frames. *)
Definition texts (l : list (frame text)) : list text :=
  flat_map (fun f => match f with FText s => [s] | _ => [] end) l.

Definition final (f : frame text) : Prop := f = FError \/ f = FEnd.

(** The messages of connection [c], in order. *)
Definition sent_by (c : nat) (l : list (nat * msg A)) : list (msg A) :=
  map snd (filter (fun p => Nat.eqb (fst p) c) l).

Definition preachable (decode : text -> msg A) (encode : response A -> text) (a : St A) (p : pstate A text) : Prop :=
  exists es, p = prun decode encode (pinit a) es.

(** Responses put in the channel of connection [c]. *)
Definition responses (s : state A) (c : nat) : list (response A) := map snd (received s c).
End PumpSpec.
