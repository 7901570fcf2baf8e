(** Pages: examples for C55. *)
From Coq Require Import List String Ascii Bool Arith NArith ZArith.
From Verif Require Import Util Js JsonText JsonTextExamples Wire Prelude TsProgram FileProofs JsSem JsSpec JsClaims.
From Verif Require Client.
Import ListNotations.
Local Open Scope string_scope.
Local Open Scope list_scope.

Definition no_other (k : jsval) (id : N) : bool := false.
Definition page1 (sc : list script) (ts : list task) : result unit := page exact_lit exact_num no_other 100 client_program sc ts.
Definition outcome1 := outcome exact_lit exact_num no_other.
Definition shown (v : val) : string := match v with VStr t => string_of_list_ascii (map ascii_of_N t) | _ => "" end.
Definition promised (s : state) (v : val) : option val :=
  match v with
  | VProm p => match nth_error (st_proms s) p with Some x => match pr_state x with PFul v => Some v | _ => None end | None => None end
  | _ => None
  end.
Definition view (s : state) :=
  (map (fun y => (so_state y, map shown (so_sent y))) (st_socks s), map (option_map snd) (st_timers s), map (promised s) (us_proms (st_user s)), us_heard (st_user s)).
Definition user l : task := TUser (mkScript l false).
Definition told (what : string) k id d : task := TMessage k (js "{""" ++ js what ++ js """:{""id"":" ++ exact_lit (NInt id) ++ js ",""data"":" ++ js d ++ js "}}").
Definition answer := told "method".
Definition item := told "stream".

(** Requests, a stream with two listeners of which the first makes a request and throws when it is called first, a socket
    that fails, another request while there is none, the timer, another socket. *)
Definition a_script : list script := [mkScript [ARequest "Pet" "food" []] true].
Definition a_day : list task :=
  [user [ARequest "Pet" "name" [JsNum (NInt 7)]; AStream "Pet" "all" []; AListen 0; AListen 0]; TOpen 0; item 0 2 "5"; answer 0 1 "true"; item 0 2 "6";
   TFail 0; user [ARequest "Pet" "age" [JsNull]]; TTimer 0; TOpen 1; answer 1 3 "[]"; answer 1 4 "null"; TFail 1].
Example a_day_comes_to : exists s, outcome1 client_program a_script a_day s /\ few a_script a_day /\
  view s =
    ([(Client.Closed, ["{""exec"":{""id"":1,""method"":""name"",""namespace"":""Pet"",""args"":[7]}}";
                       "{""exec"":{""id"":2,""method"":""all"",""namespace"":""Pet"",""args"":[]}}";
                       "{""exec"":{""id"":3,""method"":""food"",""namespace"":""Pet"",""args"":[]}}"]);
      (Client.Closed, ["{""exec"":{""id"":4,""method"":""age"",""namespace"":""Pet"",""args"":[null]}}"])],
     [None; Some (VNum 100)],
     [Some (VData (JsBool true)); Some (VData (JsArr [])); Some (VData JsNull)],
     [(0, [VData (JsNum (NInt 5))]); (0, [VData (JsNum (NInt 6))]); (1, [VData (JsNum (NInt 6))])]) /\
  alive s 1 = true.
Proof.
  destruct (page1 a_script a_day) as [[] s| | |] eqn:E; try (vm_compute in E; discriminate).
  exists s. split; [now exists 100|]. split; [vm_compute; discriminate|]. vm_compute in E. injection E as <-. split; reflexivity.
Qed.
Example a_socket_is_busy : exists s, outcome1 client_program [] [user [AStream "Pet" "all" []]] s /\ busy s 0.
Proof.
  destruct (page1 [] [user [AStream "Pet" "all" []]]) as [[] s| | |] eqn:E; try (vm_compute in E; discriminate).
  exists s. split; [now exists 100|]. vm_compute in E. injection E as <-. eexists. split; [reflexivity|]. now left.
Qed.

(** A request while the socket of an earlier one closes. *)
Definition a_sequel : list task :=
  [user [ARequest "Pet" "name" [JsNum (NInt 7)]]; TOpen 0; answer 0 1 "true"; user [ARequest "Pet" "age" []]; TClose 0; TFail 1; TTimer 1; TOpen 2].
Lemma sequel_not_sent : exists s, outcome1 client_program [] a_sequel s /\ st_jobs s = [] /\
  view s =
    ([(Client.Closed, ["{""exec"":{""id"":1,""method"":""name"",""namespace"":""Pet"",""args"":[7]}}"]); (Client.Closed, []); (Client.Open, [])],
     [None; None], [Some (VData (JsBool true)); None], []).
Proof.
  destruct (page1 [] a_sequel) as [[] s| | |] eqn:E; try (vm_compute in E; discriminate).
  exists s. split; [now exists 100|]. vm_compute in E. injection E as <-. split; reflexivity.
Qed.
