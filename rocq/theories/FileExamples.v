(** The whole file: instances and witnesses. *)
From Coq Require Import List String Ascii Bool NArith.
From Verif Require Import RustTy Gen GenSpec GenExamples JsLex JsParse Ast TsType JsModule Registry RegistrySpec RegistryProofs RegistryExamples
  ParseSpec TsSpec ModuleSpec ModuleProofs ScopeSpec ScopeProofs ModuleExamples TsProgram Prelude FileSpec FileProofs.
Import ListNotations.
Local Open Scope string_scope.
Local Open Scope list_scope.

(** ** The programs of other texts *)
Example small : program "import * as q from ""x""; let a: number | undefined; export async function f<T>(b: T[]) { if (a) return b[0]; else { a = g(b, c => c + 1); } }"
  = None.
Proof. reflexivity. Qed.
Example small_read : program "let a: number | undefined; export async function f<T>(b: T[]) { if (a) return b[0]; else { a = g(b, c => c - 1); } }"
  = Some [ZStm false (YVar false "a" None);
          ZStm true (YFun "f" true [PId "b"]
            [YIf (XId "a") [YRet (Some (XIndex (XId "b") (XNum 0)))]
               [YExp (XAssign "a" (XCall (XId "g") [XId "b"; XFun false [PId "c"] [YRet (Some (XBin BSub (XId "c") (XNum 1)))]]))]])].
Proof. reflexivity. Qed.
Example small_names : option_map (fun P => (top_values P, top_exports P, top_free P))
  (program "let a: number | undefined; export async function f<T>(b: T[]) { if (a) return b[0]; else { a = g(b, c => c - 1); } }")
  = Some (["a"; "f"], ["f"], ["g"]).
Proof. reflexivity. Qed.
(** No semicolon is put in. *)
Example no_insertion : program "let a
let b;" = None.
Proof. reflexivity. Qed.

(** ** A program and its file *)
Example mall_file : exists s P m, generates mall default_options mall_inv mall_names websocket_client s /\
  ts_file s P m /\ leaves_client mall_names /\ NoDup (top_values P ++ map b_name m).
Proof.
  assert (H : exists s, generates mall default_options mall_inv mall_names websocket_client s).
  { eexists. exists 20. vm_compute. reflexivity. }
  destruct H as [s Hs]. destruct (whole_file _ _ _ _ _ s mall_regular Hs) as (P & m & _ & HF & _).
  assert (L : leaves_client mall_names).
  { intros ns Hn. vm_compute in Hn. split; intros Hc; vm_compute in Hc; intuition (subst; discriminate). }
  exists s, P, m. split; [exact Hs|]. split; [exact HF|]. split; [exact L|].
  apply (file_once _ _ _ _ _ s mall_regular Hs P m HF). intros ns Hn _. now apply L.
Qed.

(** ** Namespaces called like something else *)
Definition of_name (ns : string) : inventory := mkInv [] [mkRpc Method ns "get" [("n", ex_u8)] ex_u8].
Lemma of_name_regular ns : usable ns -> ~ In ns imports -> ns <> "get" -> ns <> "n" ->
  regular [] default_options (of_name ns) [ns] (fun _ => false).
Proof.
  intros Hu Hi Hg Hn. constructor.
  - constructor.
  - constructor.
  - split; [intros i []|]. intros m [<-|[]] _. split; [exact Hu|]. split; [now split|]. split.
    + intros a [<-|[]]. now split.
    + repeat constructor. easy.
  - discriminate.
  - repeat split.
  - intros i [=].
  - intros i. cbn. split; [discriminate|tauto].
  - intros m [<-|[]] _. cbn. split; [intros a [<-|[]]|]; vm_compute; intuition discriminate.
  - intros x Hx. unfold rpcs_of. cbn. match goal with |- context [if ?b then _ else _] => destruct b end; repeat constructor; easy.
  - split; [|split].
    + intros x [<-|[]]. exact Hi.
    + intros i [].
    + intros m [<-|[]] _. split; [cbn; intuition discriminate|]. split; [cbn; intuition congruence|].
      intros a [<-|[]]. split; [cbn; intuition discriminate|cbn; intuition congruence].
  - intros i [].
Qed.

(** A program that meets all conditions on its names, but whose file differs from what was meant. *)
Definition mistaken (E : env) (inv : inventory) (names : list string) (bad : list top -> list nsblock -> Prop) : Prop :=
  exists inside s P m, regular E default_options inv names inside /\ generates E default_options inv names websocket_client s /\
    ts_file s P m /\ bad P m.

Lemma of_name_mistaken ns (bad : list top -> list nsblock -> Prop) : ident ns = true -> binding ns = true -> ~ In ns imports -> ns <> "get" -> ns <> "n" ->
  (exists s, generates [] default_options (of_name ns) [ns] websocket_client s) ->
  (forall m, map b_name m = [ns] -> bad client_program m) -> mistaken [] (of_name ns) [ns] bad.
Proof.
  intros H1 H2 H3 H4 H5 [s Hs] Hb. pose proof (of_name_regular ns (conj H1 H2) H3 H4 H5) as HR.
  destruct (whole_file _ _ _ _ _ s HR Hs) as (P & m & HP & HF & HM). rewrite client_program_read in HP. injection HP as <-.
  exists (fun _ => false), s, client_program, m. split; [exact HR|]. split; [exact Hs|]. split; [exact HF|]. apply Hb.
  destruct (spaces_names _ _ _ _ _ HM) as [Hn Hi].
  assert (A : In ns (map b_name m)).
  { apply Hi. split; [now left|]. right. eexists. split; [left; reflexivity|reflexivity]. }
  destruct (map b_name m) as [|x [|y l]]; [easy| |].
  - now destruct A as [->|[]].
  - exfalso. inversion Hn as [|? ? Hx _]; subst. apply Hx. left.
    destruct (proj1 (Hi x) (or_introl eq_refl)) as [[->|[]] _]. now destruct (proj1 (Hi y) (or_intror (or_introl eq_refl))) as [[->|[]] _].
Qed.

Ltac made := eexists; exists 5; vm_compute; reflexivity.

(** A namespace [JSON] is what the client calls [stringify] and [parse] of. *)
Theorem json_captured : mistaken [] (of_name "JSON") ["JSON"] (fun P m => In "JSON" (top_free P) /\ exists b, file_sees P m "JSON" = OSpace b).
Proof.
  apply of_name_mistaken; try reflexivity; try discriminate; [cbn; intuition discriminate|made|].
  intros m Hm. split; [apply client_free; cbn; tauto|]. unfold file_sees. rewrite client_declares. cbn [member_of existsb client_values String.eqb Ascii.eqb Bool.eqb orb].
  destruct m as [|b [|? ?]]; try discriminate. injection Hm as Hm. exists b. unfold block. cbn. now rewrite Hm.
Qed.
(** A namespace [CONNECTION] is declared twice. *)
Theorem connection_twice : mistaken [] (of_name "CONNECTION") ["CONNECTION"] (fun P m => ~ NoDup (top_values P ++ map b_name m)).
Proof.
  apply of_name_mistaken; try reflexivity; try discriminate; [cbn; intuition discriminate|made|].
  intros m -> H. rewrite client_declares in H. apply (nodup_both _ _ "CONNECTION" H); cbn; tauto.
Qed.

Corollary captured : exists E inv names inside s P m, regular E default_options inv names inside /\
  generates E default_options inv names websocket_client s /\ ts_file s P m /\
  In "JSON" (top_free P) /\ exists b, file_sees P m "JSON" = OSpace b.
Proof. exists [], (of_name "JSON"), ["JSON"]. exact json_captured. Qed.
Corollary twice : exists E inv names inside s P m, regular E default_options inv names inside /\
  generates E default_options inv names websocket_client s /\ ts_file s P m /\
  ~ NoDup (top_values P ++ map b_name m).
Proof. exists [], (of_name "CONNECTION"), ["CONNECTION"]. exact connection_twice. Qed.
