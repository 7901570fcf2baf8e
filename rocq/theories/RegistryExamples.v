(** A program with three namespaces. *)
From Coq Require Import List String Ascii Bool NArith Sorted Lia.
From Verif Require Import RustTy Gen GenSpec GenExamples JsLex Docs Registry RegistrySpec RegistryProofs.
Import ListNotations.
Local Open Scope string_scope.
Local Open Scope list_scope.

Definition ex_u8 : ty := TPrim (PInt U8).
Definition ex_str : ty := TPrim PString.

(** [Shop::Item], [Desk::Pen], [Shop::Cart], [Other::Thing]. *)
Definition mall : env :=
  [mkDecl "Item" "Shop" "Item" (BStruct StNamed false [fld "price" ex_u8]) None false false false [lit " An item."];
   strukt "Desk" "Pen" StTuple [fld "0" ex_str];
   strukt "Shop" "Cart" StNamed [fld "items" (TVec (TNamed 0))];
   strukt "Other" "Thing" StNamed [fld "x" ex_u8]].

Definition buy : rpc := mkRpc Method "Shop" "buy" [("item", TNamed 0); ("n", ex_u8)] (TNamed 2).
Definition watch : rpc := mkRpc Stream "Watch" "ticks" [] ex_u8.
Definition mall_inv : inventory := mkInv [2; 1; 3; 0] [watch; buy].
Definition mall_names : list string := ["Watch"; "Shop"; "Desk"; "Empty"; "Shop"].

Example mall_generates : exists s, generates mall default_options mall_inv mall_names "// prelude" s.
Proof. eexists. exists 20. vm_compute. reflexivity. Qed.

Example mall_text : generate mall mall_inv 20 mall_names "// prelude
" = Some
"// prelude
export namespace Desk { export const Pen= z.string()
export type Pen = string;

 }export namespace Shop { export const Cart= z.object({items: z.array(z.lazy(() => Shop.Item))})
export interface Cart {items: Array<{price: number}>}

/**
* An item.
*/
export const Item= z.object({price: z.number().finite().int().nonnegative().lte(255)})
/**
* An item.
*/
export interface Item {price: number}


                    // @ts-ignore
                    export async function buy(item: Shop.Item,n: number): Promise<{items: Array<{price: number}>}> {
                    // phantom usage
item;
n

                    z.tuple([z.lazy(() => Shop.Item),z.number().finite().int().nonnegative().lte(255)]).parse([...arguments]);
                    return request(""Shop"", ""buy"", arguments);
                }; }export namespace Watch { 
                    // @ts-ignore
                    export function ticks(): Store<number> {
                    

                    z.tuple([]).parse([...arguments]);
                    return subscribe(""Watch"", ""ticks"", arguments);
                }; }".
Proof. vm_compute. reflexivity. Qed.

(** The same members in another link order, with more namespaces outside the backend. *)
Definition mall_inv' : inventory := mkInv [3; 1; 2; 0] [buy; mkRpc Stream "Other" "boo" [] ex_u8; watch].
Example mall_alike : alike mall mall_names mall_inv mall_inv'.
Proof. intros ns H. cbn in H. repeat destruct H as [<-|H]; vm_compute; auto. destruct H. Qed.
Example mall_collect : collect mall mall_inv = [("Desk", [1]); ("Other", [3]); ("Shop", [2; 0])] /\
  get "Shop" (zod_namespaces mall mall_inv mall_names) = Some [2; 0] /\
  get "Other" (zod_namespaces mall mall_inv mall_names) = None /\ get "Watch" (zod_namespaces mall mall_inv mall_names) = None.
Proof. vm_compute. auto. Qed.
Example mall_rpc_members : exists m d, rpc_members mall mall_inv 20 mall_names = Some m /\ get "Shop" m = Some [d] /\ get "Desk" m = None.
Proof. eexists. eexists. vm_compute. auto. Qed.

(** Registration accepts the program: the namespaces are three types. *)
Definition mall_nsty (i : nat) : nat := match i with 1 => 1 | 3 => 2 | _ => 0 end.
Definition mall_name (k : nat) : string := match k with 0 => "Shop" | 1 => "Desk" | _ => "Other" end.
Example mall_registers : registers mall mall_nsty /\
  (forall i, i < List.length mall -> d_ns (lookup mall i) = mall_name (mall_nsty i)) /\
  (forall i j, i < List.length mall -> j < List.length mall -> mall_name (mall_nsty i) = mall_name (mall_nsty j) -> mall_nsty i = mall_nsty j) /\
  (forall i, i < List.length mall -> d_name (lookup mall i) = d_ident (lookup mall i)) /\
  NoDup (i_types mall_inv) /\ (forall i, In i (i_types mall_inv) -> i < List.length mall).
Proof.
  assert (H : forall P : nat -> Prop, P 0 -> P 1 -> P 2 -> P 3 -> forall i, i < List.length mall -> P i).
  { intros P P0 P1 P2 P3 i Hi. cbn in Hi. do 4 (destruct i as [|i]; [assumption|]). lia. }
  split; [|split; [|split; [|split; [|split]]]].
  - unfold registers. cbn. repeat constructor; cbn; intuition discriminate.
  - apply H; reflexivity.
  - assert (H2 : forall i, i < List.length mall -> forall j, j < List.length mall ->
      mall_name (mall_nsty i) = mall_name (mall_nsty j) -> mall_nsty i = mall_nsty j); [|auto].
    apply (H (fun i => forall j, j < List.length mall -> mall_name (mall_nsty i) = mall_name (mall_nsty j) -> mall_nsty i = mall_nsty j));
      (intros j Hj; revert j Hj; match goal with |- forall j, _ -> @?Q j => apply (H Q) end); cbn; congruence.
  - apply H; reflexivity.
  - repeat constructor; cbn; intuition discriminate.
  - cbn. intuition; subst; cbn; lia.
Qed.

(** Two types renamed to one name: registration sees the identifiers. *)
Definition renamed : env :=
  [mkDecl "A" "Ns" "X" (BStruct StNamed false [fld "a" ex_u8]) None false false false [];
   mkDecl "B" "Ns" "X" (BStruct StNamed false [fld "b" ex_str]) None false false false []].
Definition twice_exported (E : env) (inv : inventory) (names : list string) (head : string) : Prop :=
  exists s a b c, generates E default_options inv names "" s /\ s = (a ^^ head ^^ b ^^ head ^^ c).
Theorem renamed_twice : registers renamed (fun _ => 0) /\ compiles renamed /\
  twice_exported renamed (mkInv [0; 1] []) ["Ns"] "export const X= ".
Proof.
  split; [|split].
  - unfold registers. cbn. repeat constructor; cbn; intuition discriminate.
  - intros i. do 2 (destruct i as [|i]; [eexists; vm_compute; reflexivity|]). destruct i; eexists; vm_compute; reflexivity.
  - eexists. exists "export namespace Ns { ". eexists. eexists. split; [exists 9; vm_compute; reflexivity|].
    instantiate (1 := "z.object({b: z.string()})
export interface X {b: string}

 }"). instantiate (1 := "z.object({a: z.number().finite().int().nonnegative().lte(255)})
export interface X {a: number}

"). reflexivity.
Qed.

(** A method named like a type: nothing checks that. *)
Definition clash_inv : inventory := mkInv [0] [mkRpc Method "Ns" "A" [] ex_u8].
Definition clash : env := [strukt "Ns" "A" StNamed [fld "a" ex_u8]].
Theorem clash_generated : registers clash (fun _ => 0) /\ compiles clash /\
  exists s a b c, generates clash default_options clash_inv ["Ns"] "" s /\
    s = (a ^^ "export const A= " ^^ b ^^ "export async function A(" ^^ c).
Proof.
  split; [|split].
  - unfold registers. cbn. repeat constructor; cbn; intuition discriminate.
  - intros i. destruct i as [|i]; [eexists; vm_compute; reflexivity|]. destruct i; eexists; vm_compute; reflexivity.
  - eexists. exists "export namespace Ns { ". exists "z.object({a: z.number().finite().int().nonnegative().lte(255)})
export interface A {a: number}


                    // @ts-ignore
                    ". eexists. split; [exists 9; vm_compute; reflexivity|].
    instantiate (1 := "): Promise<number> {
                    

                    z.tuple([]).parse([...arguments]);
                    return request(""Ns"", ""A"", arguments);
                }; }"). reflexivity.
Qed.

(** An interface, also behind a box, and an alias. *)
Definition shapes : env :=
  [mkDecl "A" "Ns" "A" (BStruct StNamed false [fld "a" ex_u8]) None false false false [];
   mkDecl "B" "Ns" "B" (BStruct StTuple false [fld "0" ex_u8]) None false false false []].
Example shapes_interfaces : record_type shapes (TWrap WBox (TNamed 0)) /\ ~ record_type shapes (TNamed 1) /\
  returns shapes TypeDef (TWrap WBox (TNamed 0)) "{a: number}" /\ returns shapes TypeDef (TNamed 1) "number".
Proof.
  split; [constructor; now apply (rt_named _ 0 [fld "a" ex_u8])|]. split.
  { inversion 1 as [? ? ? Hb|? ? ? Hb Hl| |? ? ? ? Hf]; try discriminate. cbn in Hb. injection Hb as <-. now apply Hl. }
  split; exists 9; vm_compute; reflexivity.
Qed.
