(** When parsing with a generated schema comes to an end. *)
From Coq Require Import List String Bool.
From Verif Require Import RustTy Gen GenSpec ZodSpec Js Zod SerdeSpec.
Import ListNotations.
Local Open Scope list_scope.

(** [schema.parse(v)] accepts or rejects: it neither runs forever nor throws anything but
    its list of issues. *)
Definition answers (ip : option string -> jstr -> bool) (M : menv) (z : zod) (v : jsval) : Prop :=
  (exists o, accepts ip M z v o) \/ rejects ip M z v.

(** Declarations a type mentions. *)
Fixpoint refs (t : ty) : list nat :=
  match t with
  | TPrim _ => []
  | TTuple ts => flat_map refs ts
  | TWrap _ t | TVec t | TArr _ t | TSet _ t | TOpt t => refs t
  | TMap _ k v => refs k ++ refs v
  | TRes t e => refs t ++ refs e
  | TNamed i => [i]
  end.

(** Types a declaration is built from. *)
Definition parts (d : decl) : list ty :=
  match d_from d, d_body d with
  | Some t, _ => [t]
  | None, BStruct _ _ fs => map f_ty (kept fs)
  | None, BEnum _ vs => flat_map (fun v => map f_ty (kept (v_fields v))) (kept_variants vs)
  end.

Definition flattens (d : decl) : Prop :=
  match d_from d, d_body d with
  | None, BStruct _ _ fs => exists f, In f (kept fs) /\ f_flatten f = true
  | _, _ => False
  end.

Definition within (inside : nat -> bool) (t : ty) : Prop := forall i, In i (refs t) -> inside i = true.

(** A set of declarations closed under mentioning, without flatten. *)
Definition closed (E : env) (inside : nat -> bool) : Prop :=
  forall i, inside i = true ->
    ~ flattens (lookup E i) /\ forall t, In t (parts (lookup E i)) -> within inside t.

(** Types that have to parse the very value the declaration has to parse. *)
Definition same_value (d : decl) : list ty :=
  match d_from d, d_body d with
  | Some t, _ => [t]
  | None, BStruct _ true fs => match kept fs with f :: _ => [f_ty f] | [] => [] end
  | None, BStruct StTuple false fs => match kept fs with [f] => [f_ty f] | _ => [] end
  | None, BEnum Untagged vs =>
      flat_map (fun v => match v_style v, kept (v_fields v) with
                         | StTuple, [f] => [f_ty f]
                         | _, _ => []
                         end) (kept_variants vs)
  | None, _ => []
  end.

(** No endless chain of types that hand the same value on. *)
Inductive grounded (E : env) : ty -> Prop :=
| gr_prim p : grounded E (TPrim p)
| gr_tuple ts : grounded E (TTuple ts)
| gr_vec t : grounded E (TVec t)
| gr_arr n t : grounded E (TArr n t)
| gr_set c t : grounded E (TSet c t)
| gr_map c k v : grounded E (TMap c k v)
| gr_res t e : grounded E (TRes t e)
| gr_wrap w t : grounded E t -> grounded E (TWrap w t)
| gr_opt t : grounded E t -> grounded E (TOpt t)
| gr_named i : (forall t, In t (same_value (lookup E i)) -> grounded E t) -> grounded E (TNamed i).
