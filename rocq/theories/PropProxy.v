(** C145: access to the elements of SoA containers through proxies. *)
From Verif Require Import ProxyTypes ProxyProofs.
From Coq Require Import List Bool Arith.
Import ListNotations.

(** REFUTED: with a jagged vector of non-const elements neither the element access of a const
    device container nor the const accessor of a proxy compiles. *)
Theorem C145_refuted :
  (forall gc i, access true true gc [mkVar KVector false; mkVar KJagged false] 0 i = None) /\
  (forall i, access true false true [mkVar KVector false; mkVar KJagged false] 1 i = None) /\
  (forall i, access true false false [mkVar KVector false; mkVar KJagged false] 1 i = Some (mkExpr (CDevice false) false (PInner 1 i))).
Proof. repeat split. Qed.
Print Assumptions C145_refuted.

(** All other accesses compile, and give access to the right data; elements can be changed
    exactly if the variable, the container and the proxy are not const. *)
Theorem C145_access_partial : forall dev cc gc xs v i x, nth_error xs v = Some x -> (dev = false -> forall y, In y xs -> v_const y = false) ->
  (dev = true -> cc = true -> forall y, In y xs -> v_kind y = KJagged -> v_const y = true) ->
  (dev = true -> gc = true -> v_kind x = KJagged -> v_const x = true) ->
  access dev cc gc xs v i =
    Some match v_kind x with
    | KScalar => mkExpr CElement (v_const x || cc || gc) (PVariable v)
    | KVector => mkExpr CElement (v_const x || cc || gc) (PElement v i)
    | KJagged => mkExpr (if dev then CDevice (v_const x) else CVector) (cc || gc) (PInner v i)
    end.
Proof. exact access_thm. Qed.
Print Assumptions C145_access_partial.

(** The accesses that do not compile, in general. *)
Theorem C145_ill_formed : forall cc gc xs v i x, nth_error xs v = Some x ->
  (cc = true /\ (exists y, In y xs /\ v_kind y = KJagged /\ v_const y = false)) \/ (gc = true /\ v_kind x = KJagged /\ v_const x = false) ->
  access true cc gc xs v i = None.
Proof. exact access_none. Qed.
Print Assumptions C145_ill_formed.

(** Access without proxies, [container.get<v>()] and [container.get<v>().at(i)]: the right data, with
    elements that can be changed exactly if neither the variable nor the container is const.  This is
    never ill-formed: at() const of a jagged device vector returns a vector of const elements. *)
Theorem C145_variable : forall dev cc x v i,
  let e := container_get dev cc x v in
  e_place e = PVariable v /\
  match v_kind x with
  | KScalar => e = mkExpr CElement (v_const x || cc) (PVariable v)
  | KVector => at_index e i = Some (mkExpr CElement (dev && v_const x || cc) (PElement v i))
  | KJagged => at_index e i = Some (if dev then mkExpr (CDevice (v_const x || cc)) false (PInner v i) else mkExpr CVector cc (PInner v i))
  end.
Proof. exact variable_thm. Qed.
Print Assumptions C145_variable.

(** The container of const variables, as used with const views, and the host container. *)
Example C145_ex : access true true true [mkVar KScalar true; mkVar KVector true; mkVar KJagged true] 2 7 = Some (mkExpr (CDevice true) true (PInner 2 7)) /\
  access true false false [mkVar KScalar false; mkVar KVector false; mkVar KJagged false] 1 7 = Some (mkExpr CElement false (PElement 1 7)) /\
  access false true false [mkVar KScalar false; mkVar KVector false; mkVar KJagged false] 2 7 = Some (mkExpr CVector true (PInner 2 7)).
Proof. repeat split. Qed.
