(** The fragment in which everything serde writes passes the generated schema. *)
From Coq Require Import List String Bool NArith ZArith.
From Verif Require Import RustTy Gen GenSpec ZodSpec Js Zod Serde SerdeSpec.
Import ListNotations.
Local Open Scope string_scope.
Local Open Scope list_scope.

(** A document without [null] and without surrogates in its strings. *)
Fixpoint plain_json (j : json) : bool :=
  match j with
  | JNull => false
  | JStr s => forallb (fun u => negb (high u) && negb (low u)) s
  | JArr l => forallb plain_json l
  | JObj l => forallb (fun p => plain_json (snd p)) l
  | _ => true
  end.

(** zod's IP check knows what Rust writes. *)
Definition ips_agree (R : rust) (ip : option string -> jstr -> bool) : Prop :=
  (forall s, ip_writes R PIpv4 s = true -> ip (Some "v4") s = true) /\
  (forall s, ip_writes R PIpv6 s = true -> ip (Some "v6") s = true) /\
  (forall s, ip_writes R PIpAddr s = true -> ip None s = true).

(** [mild]: only plain documents are looked at, so that [Option], [Weak], floats and [char]
    belong to the fragment. *)
Section Complete.
Context (mild : bool) (inside : nat -> bool).

Definition complete_prim (p : prim) : bool :=
  match p with
  | PString | PInt _ | PUnit | PIpv4 | PIpv6 | PIpAddr => true
  | PF32 | PF64 | PChar => mild
  | PBool => false
  end.

Fixpoint complete_ty (t : ty) : bool :=
  match t with
  | TPrim p => complete_prim p
  | TTuple ts => forallb complete_ty ts
  | TWrap WPhantom _ => false
  | TWrap WWeak t | TOpt t => mild && complete_ty t
  | TWrap _ t | TVec t | TArr _ t => complete_ty t
  | TSet _ _ | TMap _ _ _ => false
  | TRes t e => complete_ty t && complete_ty e
  | TNamed i => inside i
  end.

(** Named fields: what is read is written, under the same name. *)
Definition complete_named (fs : list field) : Prop :=
  (forall f, In f (kept fs) -> complete_ty (f_ty f) = true /\ f_sskip f = false /\ f_sname f = f_name f) /\
  (forall f, In f (skept fs) -> f_flatten f = false) /\
  NoDup (map f_sname (skept fs)).

(** Unnamed fields: none is skipped. *)
Definition complete_tuple (fs : list field) : Prop :=
  forall f, In f fs -> complete_ty (f_ty f) = true /\ f_skip f = false /\ f_sskip f = false /\ f_flatten f = false.

Definition complete_struct (st : style) (tr : bool) (fs : list field) : Prop :=
  if tr then
    (forall f, In f (skept fs) -> f_flatten f = false) /\
    exists f, kept fs = [f] /\ complete_ty (f_ty f) = true /\
      filter (fun f => negb (f_sskip f) && negb (phantom (f_ty f))) fs = [f]
  else
    match st with
    | StNamed => complete_named fs
    | StTuple => complete_tuple fs
    | StUnit => False
    end.

Definition complete_variant (tg : tagging) (v : variant) : Prop :=
  v_skip v = false /\ v_sname v = v_name v /\
  match v_style v with
  | StUnit => True
  | StTuple =>
      v_fields v <> [] /\ complete_tuple (v_fields v) /\
      match tg with Internal _ => False | Adjacent t c => t <> c | _ => True end
  | StNamed =>
      complete_named (v_fields v) /\
      match tg with
      | Internal t => ~ In t (map f_sname (skept (v_fields v)))
      | Adjacent t c => t <> c
      | _ => True
      end
  end.

Definition complete_decl (d : decl) : Prop :=
  match d_from d, d_body d with
  | Some _, _ => False
  | None, BStruct st tr fs => complete_struct st tr fs
  | None, BEnum tg vs => forall v, In v vs -> v_sskip v = false -> complete_variant tg v
  end.

Definition complete (E : env) : Prop := forall i, inside i = true -> complete_decl (lookup E i).
End Complete.
