(** What the theorems on streams of client and server together say. *)
From Coq Require Import List Arith NArith Bool.
From Verif Require Import Util Server ServerSpec Pump Client ClientSpec E2E E2ESpec.
Import ListNotations.

Section E2EStreamSpec.
Context {R text K D : Type} {A : app}.
Local Notation world := (world text K D A).

(** The stream of the client's call [id] is [tk]: the function that makes it has run, once, for this
    message, after exactly the messages before it and on the backend value those have left. *)
Definition streams (a : St A) (w : world) (id : N) (v : Json A) (call : Call A) (tk : task A) : Prop :=
  exists c before after q a',
    st_sent (p_srv (w_sv w)) = before ++ (c, inl (Exec id v)) :: after /\
    is_ours w c /\
    seq_run (seq_init a) before = Some q /\
    open_stream A (q_app q) call = Some a' /\
    (exists q', seq_run (seq_init a) (before ++ [(c, inl (Exec id v))]) = Some q' /\ q_app q' = a') /\
    nth_error (st_tasks (p_srv (w_sv w))) (length (q_starts q)) = Some tk /\ tk_conn tk = c /\ tk_id tk = id /\
    (forall i, is_call w id i -> i = length before).

(** The items of a stream as the client understands them.  Items that could not be serialized are sent
    as errors, which the client drops. *)
Definition values (data : Json A -> D) (tk : task A) : list D :=
  flat_map (fun v => match v with inl d => [data d] | inr _ => [] end) (tk_items tk).

(** [l'] is [l] with some left out. *)
Inductive thinned {X} : list X -> list X -> Prop :=
| th_nil : thinned [] []
| th_keep x l l' : thinned l l' -> thinned (x :: l) (x :: l')
| th_drop x l l' : thinned l l' -> thinned (x :: l) l'.

(** No callback has thrown. *)
Definition no_throws (c : client text K D) : Prop := Forall (fun m => snd m = true) (cl_msgs c).
End E2EStreamSpec.
