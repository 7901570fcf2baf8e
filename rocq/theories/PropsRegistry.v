(** C19, C20, C22, C45: the registry and the generated module.
    Every proof is one [exact]; the assumptions of each theorem are printed. *)
From Coq Require Import List String Bool NArith.
From Verif Require Import RustTy Gen GenSpec Docs Registry RegistrySpec RegistryProofs RegistryExamples.
Import ListNotations.
Local Open Scope string_scope.
Local Open Scope list_scope.

(** The generated text is the prelude and one block per namespace, and generation returns
    whenever all parts do. *)
Theorem C19_module_text : forall E o inv names prelude s,
  generates E o inv names prelude s <-> module_of E o inv names prelude s.
Proof. exact generates_module. Qed.
Print Assumptions C19_module_text.

Theorem C20_depends_only_on_own_members : forall E o a b names names' prelude s,
  alike E names a b -> (forall ns, In ns names <-> In ns names') ->
  (generates E o a names prelude s <-> generates E o b names' prelude s).
Proof. exact generate_depends. Qed.
Print Assumptions C20_depends_only_on_own_members.

Theorem C20_deterministic : forall E o inv names prelude s s',
  generates E o inv names prelude s -> generates E o inv names prelude s' -> s = s'.
Proof. exact module_unique. Qed.
Print Assumptions C20_deterministic.

Theorem C22_members : forall E inv ns,
  members E inv ns = types_of E ns (i_types inv) /\ ns_rpc_members inv ns = rpcs_of ns (i_rpcs inv).
Proof. exact members_spec. Qed.
Print Assumptions C22_members.

Theorem C22_collect : forall E inv, ascending (map fst (collect E inv)) /\
  forall ns l, In (ns, l) (collect E inv) <-> l = types_of E ns (i_types inv) /\ l <> [].
Proof. exact collect_spec. Qed.
Print Assumptions C22_collect.

Theorem C22_zod_namespaces : forall E inv names ns,
  (In ns names -> get ns (zod_namespaces E inv names) = nonempty (types_of E ns (i_types inv))) /\
  (~ In ns names -> get ns (zod_namespaces E inv names) = None).
Proof. exact zod_namespaces_spec. Qed.
Print Assumptions C22_zod_namespaces.

Theorem C22_rpc_members : forall E inv n names m ns, rpc_members E inv n names = Some m ->
  (In ns names -> exists ds, Forall2 (rpc_member E) (rpcs_of ns (i_rpcs inv)) ds /\ get ns m = nonempty ds) /\
  (~ In ns names -> get ns m = None).
Proof. exact rpc_members_texts. Qed.
Print Assumptions C22_rpc_members.

(** Without renames the exported type names of a namespace are distinct. *)
Theorem C45_unique_names : forall E inv nsty name, registers E nsty ->
  (forall i, i < List.length E -> d_ns (lookup E i) = name (nsty i)) ->
  (forall i j, i < List.length E -> j < List.length E -> name (nsty i) = name (nsty j) -> nsty i = nsty j) ->
  (forall i, i < List.length E -> d_name (lookup E i) = d_ident (lookup E i)) ->
  NoDup (i_types inv) -> (forall i, In i (i_types inv) -> i < List.length E) ->
  forall ns, NoDup (map (fun i => d_name (lookup E i)) (types_of E ns (i_types inv))).
Proof. exact unique_names. Qed.
Print Assumptions C45_unique_names.

Theorem C45_renamed_refuted : registers renamed (fun _ => 0) /\ compiles renamed /\
  twice_exported renamed (mkInv [0; 1] []) ["Ns"] "export const X= ".
Proof. exact renamed_twice. Qed.
Print Assumptions C45_renamed_refuted.

Theorem C45_method_named_like_type_refuted : registers clash (fun _ => 0) /\ compiles clash /\
  exists s a b c, generates clash default_options clash_inv ["Ns"] "" s /\
    s = (a ^^ "export const A= " ^^ b ^^ "export async function A(" ^^ c).
Proof. exact clash_generated. Qed.
Print Assumptions C45_method_named_like_type_refuted.
