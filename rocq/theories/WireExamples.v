(** The backend of examples/axum on the wire, and what goes wrong. *)
From Coq Require Import List String Bool NArith ZArith Lia.
From Verif Require Import Util Js RustTy ZodSpec Serde Registry Macro Server ServerSpec Wire WireSpec WireProofs.
Import ListNotations.
Local Open Scope string_scope.
Local Open Scope list_scope.

(** examples/axum/api.rs:46-80, without [nested] and [y]. *)
Definition usize : ty := TPrim (PInt Usize).
Definition text : ty := TPrim PString.

Definition watchout : bfield ty := mkBField ["api"; "Watchout"] "Watchout" None
  [mkItem "hello1" [("_s", text)] Method (Some (Plain usize));
   mkItem "hello" [("_s", text); ("_n", usize)] Method (Some (Plain usize));
   mkItem "hello_stream" [("num", usize)] Stream (Some (ImplTrait usize))].
Definition pixera : bfield ty := mkBField ["Pixera"] "Pixera" None
  [mkItem "x" [] Stream (Some (ImplTrait text))].
Definition my_backend : backend ty := [watchout; pixera].

(** Values are kept as JSON. *)
Definition exact (n : num) : num := n.
Definition keep (t : ty) (j : json) : option json :=
  match t with
  | TPrim (PInt Usize) => match j with JInt z => if in_int Usize z then Some j else None | _ => None end
  | TPrim PString => match j with JStr _ => Some j | _ => None end
  | _ => None
  end.

Lemma my_distinct : distinct my_backend.
Proof.
  split; [repeat constructor; cbn; intuition discriminate|].
  intros f [<- | [<- | []]]; repeat constructor; cbn; intuition discriminate.
Qed.

Definition hello_args : list jsval := [JsStr (js "a"); JsNum (NInt 7)].
Definition hello_doc : json :=
  JObj [(js "exec", JObj [(js "id", JInt 3); (js "method", JStr (js "hello")); (js "namespace", JStr (js "Watchout"));
                          (js "args", JArr [JStr (js "a"); JInt 7])])].

(** C24: the hypotheses on [watchout.hello]. *)
Example hello_sent : exists i, has_item my_backend 0 1 watchout i /\
  bf_name watchout = unraw (variant_ident watchout) /\ it_ident i = unraw (it_ident i) /\ it_args i <> [] /\
  client_id 3 /\ sent_doc 3 watchout i hello_args hello_doc /\ fine hello_doc /\
  exists v, from_str exact false hello_doc = Some (WExec 3 v) /\
    read_call keep false my_backend v = Some (mkCall 0 1 [JStr (js "a"); JInt 7]).
Proof.
  eexists. split; [split; reflexivity|]. split; [reflexivity|]. split; [reflexivity|]. split; [discriminate|].
  split; [vm_compute; discriminate|]. split; [vm_compute; reflexivity|].
  split; [split; [vm_compute; reflexivity | vm_compute; repeat constructor]|].
  eexists. split; [vm_compute; reflexivity|]. vm_compute; reflexivity.
Qed.

(** C24: [pixera.x()] of the example never runs. *)
Example x_refused : exists doc v, sent_doc 3 pixera (mkItem "x" [] Stream (Some (ImplTrait text))) [] doc /\
  fine doc /\ from_str exact false doc = Some (WExec 3 v) /\ read_call keep true my_backend v = None.
Proof.
  eexists. eexists. split; [vm_compute; reflexivity|]. split; [|split; [vm_compute; reflexivity|]; vm_compute; reflexivity].
  split; [vm_compute; reflexivity|]. vm_compute. repeat constructor.
Qed.

(** C24: two namespaces named after each other: a call of one runs the other. *)
Definition left_ : bfield ty := mkBField ["Left"] "Left" (Some "Right") [mkItem "go" [("n", usize)] Method None].
Definition right_ : bfield ty := mkBField ["Right"] "Right" (Some "Left") [mkItem "go" [("n", usize)] Method None].
Definition crossed : backend ty := [left_; right_].

Lemma crossed_calls : distinct crossed /\ exists i doc v,
  has_item crossed 0 0 left_ i /\ client_id 1 /\ sent_doc 1 left_ i [JsNum (NInt 5)] doc /\ fine doc /\
  from_str exact false doc = Some (WExec 1 v) /\
  read_call keep false crossed v = Some (mkCall 1 0 [JInt 5]).
Proof.
  split.
  { split; [repeat constructor; cbn; intuition discriminate|].
    intros f [<- | [<- | []]]; repeat constructor; cbn; intuition discriminate. }
  eexists. eexists. eexists. split; [split; reflexivity|]. split; [vm_compute; discriminate|].
  split; [vm_compute; reflexivity|]. split; [split; [vm_compute; reflexivity | vm_compute; repeat constructor]|].
  split; [vm_compute; reflexivity|]. vm_compute; reflexivity.
Qed.

(** C24: a namespace renamed to a name no variant has. *)
Definition renamed : bfield ty := mkBField ["Left"] "Left" (Some "Other") [mkItem "go" [("n", usize)] Method None].
Example renamed_unknown : ~ In (bf_name renamed) (field_tags [renamed; right_]).
Proof. cbn. intuition discriminate. Qed.

(** The declarations of C24_own_name and C24_given_name. *)
Example declared : bf_given watchout = None /\ variant_ident watchout = bf_ident watchout /\ (forall r, bf_ident watchout <> "r#" ++ r)%string /\
  bf_given renamed = Some "Other" /\ ~ In "Other" (field_tags [renamed; right_]).
Proof. repeat split; [discriminate|]. cbn. intuition discriminate. Qed.
(** A raw method. *)
Definition raw_item : item ty := mkItem "r#type" [("n", usize)] Method None.
Example raw_refused : exists doc v, sent_doc 1 (mkBField ["Raw"] "Raw" None [raw_item]) raw_item [JsNum (NInt 5)] doc /\ fine doc /\
  from_str exact false doc = Some (WExec 1 v) /\ read_call keep false [mkBField ["Raw"] "Raw" None [raw_item]] v = None.
Proof.
  eexists _, _. split; [vm_compute; reflexivity|]. split; [split; [vm_compute; reflexivity|vm_compute; repeat constructor]|]. split; [vm_compute; reflexivity|]. vm_compute; reflexivity.
Qed.
(** C25: a request with a key between, one with two ids, one that is not a number. *)
Example some_requests :
  asks exact false (JObj [(js "exec", JObj [(js "args", JNull); (js "id", JInt 7); (js "more", JNull)])]) (WExec 7 (JObj [(js "args", JNull); (js "more", JNull)])) /\
  from_str exact false (JObj [(js "exec", JObj [(js "id", JInt 7); (js "id", JInt 7)])]) = None /\
  from_str exact false (JObj [(js "exec", JObj [(js "id", JStr (js "7"))])]) = None.
Proof.
  split; [|split; vm_compute; reflexivity].
  apply (asks_exec exact false _ [(js "args", JNull); (js "more", JNull)] 7); [|reflexivity].
  exists [(js "args", JNull)], [(js "more", JNull)]. split; [reflexivity|]. split; [reflexivity|]. cbn. intuition discriminate.
Qed.

(** C25: a method given by its position, a namespace not. *)
Definition by_position : json :=
  JObj [(js "namespace", JStr (js "Watchout")); (js "method", JInt 1); (js "args", JArr [JStr (js "a"); JInt 7])].
Example positional : read_call keep false my_backend by_position = Some (mkCall 0 1 [JStr (js "a"); JInt 7]) /\
  read_call keep false my_backend
    (JObj [(js "namespace", JInt 0); (js "method", JInt 1); (js "args", JArr [JStr (js "a"); JInt 7])]) = None.
Proof. split; reflexivity. Qed.
Example positional_addressed : addressed keep false my_backend by_position (mkCall 0 1 [JStr (js "a"); JInt 7]).
Proof. apply (read_call_iff _ _ _ _ _ my_distinct). reflexivity. Qed.

(** C25: a run.  Handlers count and answer with the count. *)
Definition counting : handlers json N :=
  mkHandlers (fun _ _ n _ => Some (n + 1, inl (JInt (Z.of_N n + 1))))%N (fun _ _ n _ => Some (n + 1)%N).
Definition complain (j : json) : jstr := js "no".
Definition my_app : app := rpc_app keep false my_backend counting complain.
Definition exec_hello (id : N) (n : json) : msg my_app :=
  inl (Exec (A := my_app) id (JObj [(js "args", JArr [JStr (js "a"); n]); (js "method", JStr (js "hello")); (js "namespace", JStr (js "Watchout"))])).
Definition my_run : state my_app :=
  run (init (A := my_app) [0; 10]%N) [EvConnect; EvSend 0 (exec_hello 4 (JInt 7)); EvSend 0 (exec_hello 5 JNull); EvRecv; EvMethodDone].

Example my_run_state : st_app my_run = [1; 10]%N /\
  received my_run 0 = [(SrcLoop, RMethod (A := my_app) 4 (JInt 1))] /\
  at_exec my_run 0 5 (JObj [(js "args", JArr [JStr (js "a"); JNull]); (js "method", JStr (js "hello")); (js "namespace", JStr (js "Watchout"))]) /\
  received (next my_run EvRecv) 0 = [(SrcLoop, RMethod (A := my_app) 4 (JInt 1)); (SrcLoop, RError (A := my_app) (Some 5%N) (js "no"))].
Proof.
  split; [reflexivity|]. split; [reflexivity|]. split; [|reflexivity].
  split; [reflexivity|]. exists []. reflexivity.
Qed.

(** C26: an id the client cannot tell from its neighbour. *)
Lemma id_rounded : exists id, (id < 2 ^ 64)%N /\
  on_message (jsparse (write_response (WMethod id JNull))) = Some (js_id (id - 1), JsNull).
Proof. exists (2 ^ 53 + 1)%N. split; [reflexivity|]. vm_compute. reflexivity. Qed.
