(** Property C54: the whole file, the websocket client included.
    Specification vocabulary: TsProgram.v (a lexer and parser for the part of TypeScript the client is written in),
    FileSpec.v ([ts_file], [top_values], [top_free], [file_sees]), ScopeSpec.v ([regular]). *)
From Coq Require Import List String Bool.
From Verif Require Import Gen RustTy Registry RegistrySpec JsLex JsModule ScopeSpec ModuleSpec Js TsAst Prelude TsProgram FileSpec FileProofs FileExamples.
Import ListNotations.
Local Open Scope string_scope.
Local Open Scope list_scope.

(** C54. The client is a program; what it declares, exports and takes from outside. *)
Theorem C54_client_reads : exists P, program websocket_client = Some P /\
  top_values P = client_values /\ top_types P = ["Store"] /\ top_exports P = ["subscribe"; "request"] /\
  forall x, In x (top_free P) <-> In x host_values.
Proof.
  exact (ex_intro _ client_program
    (conj client_program_read (conj client_declares (conj client_types (conj client_exports client_free))))).
Qed.
Print Assumptions C54_client_reads.

(** C54. The file that is generated with it is this program followed by the namespaces. *)
Theorem C54_file : forall E o inv names inside s, regular E o inv names inside ->
  generates E o inv names websocket_client s ->
  exists P m, program websocket_client = Some P /\ ts_file s P m /\ spaces_of E o inv names m.
Proof. exact whole_file. Qed.
Print Assumptions C54_file.

(** C54. A text has one reading as a file. *)
Theorem C54_one_reading : forall s P m P' m', ts_file s P m -> ts_file s P' m' -> P = P' /\ m = m'.
Proof. exact ts_file_unique. Qed.
Print Assumptions C54_one_reading.

(** C54. Nothing is declared twice at the top of the file, exactly if no namespace is called like a declaration of the client. *)
Theorem C54_declared_once : forall E o inv names inside s, regular E o inv names inside ->
  generates E o inv names websocket_client s -> forall P m, ts_file s P m ->
  (NoDup (top_values P ++ map b_name m) <-> forall ns, In ns names -> has_member E inv ns -> ~ In ns client_values).
Proof. exact file_once. Qed.
Print Assumptions C54_declared_once.

(** C54. The values the namespaces take from outside are declared by the client. *)
Theorem C54_imports : forall E o inv names inside s, regular E o inv names inside ->
  generates E o inv names websocket_client s -> forall P m, ts_file s P m ->
  forall b ps e x q, In b m -> In (ps, e) (code b) -> In (x, q) (uses e) -> x <> "arguments" ->
  sees m b ps x = PGlobal -> file_sees P m x = OProgram.
Proof. exact file_imports. Qed.
Print Assumptions C54_imports.

(** C54. Of the types they take from outside the client declares [Store]. *)
Theorem C54_types : forall E o inv names inside s, regular E o inv names inside ->
  generates E o inv names websocket_client s -> forall P m, ts_file s P m ->
  forall b y x q, In b m -> In y (signatures b) -> In (x, q) (tuses y) -> ~ In x keywords ->
  q = None -> type_sees b x = PGlobal /\ (In x (top_types P) <-> x = "Store").
Proof. exact file_types. Qed.
Print Assumptions C54_types.

(** C54. What the client takes from the host is not taken from a namespace. *)
Theorem C54_client_undisturbed : forall E o inv names inside s, regular E o inv names inside ->
  generates E o inv names websocket_client s -> forall P m, ts_file s P m ->
  forall x, leaves_client names -> In x (top_free P) -> file_sees P m x = OHost.
Proof. exact file_client. Qed.
Print Assumptions C54_client_undisturbed.

(** Without the condition on the names of namespaces it may be: a namespace [JSON]. *)
Theorem C54_captured_refuted : exists E inv names inside s P m, regular E default_options inv names inside /\
  generates E default_options inv names websocket_client s /\ ts_file s P m /\
  In "JSON" (top_free P) /\ exists b, file_sees P m "JSON" = OSpace b.
Proof. exact captured. Qed.
Print Assumptions C54_captured_refuted.

(** A namespace [CONNECTION] is declared a second time. *)
Theorem C54_twice_refuted : exists E inv names inside s P m, regular E default_options inv names inside /\
  generates E default_options inv names websocket_client s /\ ts_file s P m /\
  ~ NoDup (top_values P ++ map b_name m).
Proof. exact twice. Qed.
Print Assumptions C54_twice_refuted.
