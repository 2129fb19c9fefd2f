(** C151 and C152: constness and the conversions of views. *)
From Verif Require Import Base ConstViews ConstViewsProofs.
From Coq Require Import List Bool Arith Lia.
Import ListNotations.
Local Open Scope nat_scope.

(** REFUTED: object 1 is const, and only views of const elements are ever made from it.  A
    jagged_vector_view<int> is converted to jagged_vector_view<const int>; both refer to the same array
    of inner views.  A view of the const object is stored in the array through the second, and
    taken out through the first as vector_view<int>; the program compiles and writes to the const object. *)
Theorem C151_refuted :
  let int := mkElt false 1 in let cint := mkElt true 1 in
  let p := [GetData 0; GetData 1; Jagged [0] int; Convert 2 (OneView (TJag cint)); Store 3 0 1 cint; Load 2 0; Write 4 int] in
  compiles (fun _ _ => false) [int; cint] p /\ In (mkEvent true (Some int) 1) (trace p).
Proof. split; [discriminate|left; reflexivity]. Qed.
Print Assumptions C151_refuted.
(** The same for a jagged vector variable of a container. *)
Example C151_refuted_container :
  let int := mkElt false 1 in let cint := mkElt true 1 in
  let p := [GetData 0; GetData 1; Jagged [0] int; MakeView [2] true; Convert 3 (Container [TJag cint]); Get 4 0; Store 5 0 1 cint;
            Get 3 0; Load 6 0; Write 7 int] in
  compiles (fun _ _ => false) [int; cint] p /\ In (mkEvent true (Some int) 1) (trace p).
Proof. split; [discriminate|left; reflexivity]. Qed.

(** The property holds for programs that do not store through jagged_vector_view<const T>. *)
Theorem C151_const_partial : forall (base : nat -> nat -> bool) (objs : list elt) (p : list instr),
  (forall a b c, base a b = true -> base b c = true -> base a c = true) ->
  compiles base objs p ->
  (forall r i s e, In (Store r i s e) p -> e_const e = false) ->
  forall ev, In ev (trace p) ->
    exists t, nth_error objs (ev_obj ev) = Some t /\ (ev_write ev = true -> e_const t = false) /\
      match ev_elt ev with
      | Some e => (e_id e = e_id t \/ base (e_id t) (e_id e) = true) /\ (e_const t = true -> e_const e = true)
      | None => True
      end.
Proof. intros base objs p T C W. exact (const_thm base T objs p C W). Qed.
Print Assumptions C151_const_partial.
Example C151_example :
  let int := mkElt false 1 in let cint := mkElt true 1 in
  let p := [GetData 0; GetData 1; Convert 0 (OneView (TVec cint)); Read 2 cint; Write 0 int; Jagged [0; 0] int; Jagged [0; 1] cint;
            Load 4 1; Read 5 cint; Store 3 1 0 int; Pointer 0; MakeView [6; 3] true; Convert 7 (Container [TScalar cint; TJag cint]);
            WritePayload 7; Get 8 1; Load 9 0; Read 10 cint] in
  compiles (fun _ _ => false) [int; cint] p /\
  (forall r i s e, In (Store r i s e) p -> e_const e = false) /\
  trace p = [mkEvent false (Some cint) 0; mkEvent true (Some int) 0; mkEvent false (Some cint) 1;
             mkEvent true None 0; mkEvent true None 0; mkEvent true None 0; mkEvent false (Some cint) 0].
Proof.
  split; [discriminate|]. split; [|reflexivity]. intros r i s e H.
  repeat (destruct H as [H|H]; [try discriminate H; injection H as <- <- <- <-; reflexivity|]). destruct H.
Qed.
(** What does not compile: writing through a view of const elements or through the payload of a container with a
    const variable, and taking const away. *)
Example C151_rejected :
  let int := mkElt false 1 in let cint := mkElt true 1 in let no := fun _ _ : nat => false in
  check no [cint] [] [GetData 0; Write 0 cint] = None /\
  check no [int; cint] [] [GetData 0; GetData 1; MakeView [0; 1] true; WritePayload 2] = None /\
  check no [cint] [] [GetData 0; Convert 0 (OneView (TVec int))] = None /\
  check no [cint] [] [GetData 0; Jagged [0] int] = None /\
  check no [cint] [] [GetData 0; Jagged [0] cint; Convert 1 (OneView (TJag int))] = None.
Proof. repeat split. Qed.

(** REFUTED: a view of a container with a scalar of class [Derived] (2) converts to one of a container with a
    scalar of its base class (1), unlike the views of vectors and jagged vectors. *)
Theorem C152_refuted :
  let base := fun d b => Nat.eqb d 2 && Nat.eqb b 1 in
  let B := mkElt false 1 in let D := mkElt false 2 in
  edm_compiles base [TScalar B; TVec D] [TScalar D; TVec D] = true /\
  edm_enabled base [TVec B] [TVec D] = false /\ edm_enabled base [TJag B] [TJag D] = false.
Proof. repeat split. Qed.
Print Assumptions C152_refuted.

(** The property holds for schemas whose scalars are not related as base and derived classes. *)
Theorem C152_exact_partial : forall base to from,
  (forall x y, In (TScalar x) to -> In (TScalar y) from -> base (e_id y) (e_id x) = false) ->
  (edm_enabled base to from = true <->
   to <> from /\
   Forall2 (fun t f => t = f \/ t = match f with TScalar e => TScalar (mkElt true (e_id e)) | TVec e => TVec (mkElt true (e_id e))
                                              | TJag e => TJag (mkElt true (e_id e)) end) to from).
Proof. exact exact_thm. Qed.
Print Assumptions C152_exact_partial.
Example C152_exact_example :
  let int := mkElt false 1 in let cint := mkElt true 1 in
  edm_enabled (fun _ _ => false) [TScalar cint; TVec int; TJag cint] [TScalar int; TVec int; TJag cint] = true.
Proof. reflexivity. Qed.

(** The same for single views, where it holds without restriction for vectors and jagged vectors. *)
Theorem C152_single : forall base t f,
  (constructible base (TVec t) (TVec f) = true <-> t = f \/ (t = mkElt true (e_id f))) /\
  (constructible base (TJag t) (TJag f) = true <-> t = f \/ (t = mkElt true (e_id f))).
Proof.
  intros base t f. split.
  - rewrite (exact_view base (TVec t) (TVec f) I). cbn [add_const]. split; intros [H|H]; try (injection H as H); subst; auto.
  - rewrite (exact_view base (TJag t) (TJag f) I). cbn [add_const]. split; intros [H|H]; try (injection H as H); subst; auto.
Qed.
Print Assumptions C152_single.

(** Whenever the conversion is enabled, the initialisers of the untyped views compile, so that no error arises inside of
    the constructor: they have the same type, or const is added. *)
Theorem C152_compiles : forall base to from, edm_enabled base to from = true ->
  let cst s := existsb (fun t => match t with TScalar e | TVec e | TJag e => e_const e end) s in
  cst to = cst from \/ (cst to = true /\ cst from = false).
Proof.
  intros base to from H. pose proof (compiles_thm base to from H) as K. unfold edm_compiles in K. apply andb_true_iff in K. destruct K as [_ K].
  apply constructible_spec in K. cbn [conv_ok] in K. destruct K as [_ K]. unfold memory_elt in K. cbn [e_const] in K.
  assert (E : forall s, existsb (fun t => match t with TScalar e | TVec e | TJag e => e_const e end) s = existsb (fun t => e_const (vty_elt t)) s).
  { induction s as [|[e|e|e] s IH]; cbn [existsb vty_elt]; congruence. }
  cbn zeta. rewrite !E. destruct (existsb _ to), (existsb _ from); auto.
Qed.
Print Assumptions C152_compiles.
Example C152_compiles_example :
  edm_enabled (fun _ _ => false) [TScalar (mkElt true 1); TVec (mkElt false 1)] [TScalar (mkElt false 1); TVec (mkElt false 1)] = true.
Proof. reflexivity. Qed.

(** Conversions compose, and every view converts to the view of the const schema. *)
Theorem C152_compose : forall base, (forall a b c, base a b = true -> base b c = true -> base a c = true) ->
  forall a b c, convertible base a b = true -> convertible base b c = true -> convertible base a c = true.
Proof. exact convertible_trans. Qed.
Print Assumptions C152_compose.
Theorem C152_add_const : forall base s,
  convertible base (Container (map (fun f => match f with TScalar e => TScalar (mkElt true (e_id e)) | TVec e => TVec (mkElt true (e_id e))
                                                        | TJag e => TJag (mkElt true (e_id e)) end) s)) (Container s) = true.
Proof. exact add_const_thm. Qed.
Print Assumptions C152_add_const.
Example C152_compose_example :
  let int := mkElt false 1 in let cint := mkElt true 1 in let no := fun _ _ : nat => false in
  convertible no (Container [TVec cint; TVec cint]) (Container [TVec int; TVec cint]) = true /\
  convertible no (Container [TVec int; TVec cint]) (Container [TVec int; TVec int]) = true.
Proof. split; reflexivity. Qed.
