(** Properties C49, C92-C94: edm::host. *)
From Verif Require Import Base BaseLemmas EdmHost EdmHostProofs.

(** C49.  [vlen v] is the number of elements of a vector variable, [all_of_size vs n] says
    that all vector variables have [n] elements. *)
Theorem C49_size : forall (A : Type) (vs : list (hvar A)) z, has_vector vs ->
  (h_size vs = Ret z <-> exists n, z = Z.of_nat n /\ all_of_size vs n).
Proof. exact @size_returns. Qed.
Print Assumptions C49_size.

Theorem C49_throws : forall (A : Type) (vs : list (hvar A)), has_vector vs ->
  (h_size vs = Throw length_error <->
   exists v1 v2 n1 n2, In v1 vs /\ In v2 vs /\ vlen v1 = Some n1 /\ vlen v2 = Some n2 /\ n1 <> n2).
Proof. exact @size_throws. Qed.
Print Assumptions C49_throws.

(** [resized n v v']: the first [n] elements of [v], filled up with value-initialised ones;
    scalars are as before. *)
Theorem C49_resize : forall (A : Type) n (vs : list (hvar A)), has_vector vs ->
  exists vs', h_resize (fun _ => false) n vs = (Ret tt, vs') /\ Forall2 (resized n) vs vs' /\ h_size vs' = Ret (Z.of_nat n).
Proof. exact @resize_thm. Qed.
Print Assumptions C49_resize.

Definition host49 : list (hvar Z) := [HScalar [3]; HVec 0 [1; 2; 4]; HJag [[7]; []; [8; 9]]].
Example C49_ex : has_vector host49 /\ h_size host49 = Ret 3 /\
  h_resize (fun _ => false) 4 host49 = (Ret tt, [HScalar [3]; HVec 0 [1; 2; 4; 0]; HJag [[7]; []; [8; 9]; []]]) /\
  h_resize (fun _ => false) 1 host49 = (Ret tt, [HScalar [3]; HVec 0 [1]; HJag [[7]]]) /\
  h_size [HVec 0 [1]; HScalar [3]; HJag [[7]; [8]]] = Throw length_error.
Proof. split; [exists (HVec 0 [1; 2; 4]), 3%nat; cbn; auto|repeat split]. Qed.

(** C92: element access. *)
Theorem C92_at : forall (A : Type) n i (vs : list (hvar A)), has_vector vs -> scalars_ok vs -> all_of_size vs n ->
  ((i < n)%nat -> exists xs, h_at i vs = Ret xs /\ h_index i vs = Ret xs /\ Forall2 (item_at i) vs xs) /\
  ((n <= i)%nat -> h_at i vs = Throw out_of_range /\ h_index i vs = Throw out_of_range).
Proof. exact @at_thm. Qed.
Print Assumptions C92_at.

Theorem C92_new : forall (A : Type) (ks : list (hkind A)), has_vector (h_new ks) ->
  h_size (h_new ks) = Ret 0 /\ scalars_ok (h_new ks).
Proof. exact (fun A ks H => conj (new_thm ks H) (new_scalars ks)). Qed.
Print Assumptions C92_new.

Example C92_ex : scalars_ok host49 /\ all_of_size host49 3 /\
  h_at 2 host49 = Ret [IElem 3; IElem 4; IRow [8; 9]] /\ h_at 3 host49 = Throw out_of_range /\
  has_vector (h_new [KScalar 0; KVec 0; KJag]) /\ h_new [KScalar 0; KVec 0; KJag] = [HScalar [0]; HVec 0 []; HJag []].
Proof.
  split; [intros l [H|[H|[H|[]]]]; try discriminate; injection H as <-; eauto|].
  split; [intros v m [<-|[<-|[<-|[]]]] E; cbn in E; congruence|].
  split; [reflexivity|split; [reflexivity|split; [|reflexivity]]]. exists (HVec 0 []), 0%nat. cbn. auto.
Qed.

(** C93: the view made by get_data. *)
Theorem C93_get_data : forall (A : Type) n (vs : list (hvar A)),
  has_vector vs -> all_of_size vs n -> Z.of_nat n < 2 ^ 32 ->
  exists d, h_get_data vs = Ret d /\ fst d = Z.of_nat n /\ length (snd d) = length vs /\ capacities_match d = true.
Proof. exact @data_thm. Qed.
Print Assumptions C93_get_data.

Example C93_ex : all_of_size host49 3 /\ h_get_data host49 = Ret (3, [None; Some 3; Some 3]) /\
  capacities_match (3, [None; Some 3; Some 3]) = true /\ capacities_match (3, [None; Some 3; Some 2]) = false.
Proof. split; [|repeat split]. intros v m [<-|[<-|[<-|[]]]] E; cbn in E; congruence. Qed.

(** C94: a resize that runs out of memory leaves the variables with different sizes, after
    which size() and at() throw length_error. *)
Theorem C94_refuted :
  ~ (forall (fails : nat -> bool) n (vs vs' : list (hvar Z)) e z,
       h_size vs = Ret z -> h_resize fails n vs = (Throw e, vs') -> exists z', h_size vs' = Ret z').
Proof. exact resize_refuted. Qed.
Print Assumptions C94_refuted.

(** What does hold: the variables before the failing one are resized, the rest untouched. *)
Theorem C94_prefix_partial : forall (A : Type) fails n (vs vs' : list (hvar A)) e,
  h_resize fails n vs = (Throw e, vs') -> e = bad_alloc /\
  exists k, Forall2 (resized n) (firstn k vs) (firstn k vs') /\ skipn k vs' = skipn k vs /\ (k < length vs)%nat.
Proof. exact @resize_fails. Qed.
Print Assumptions C94_prefix_partial.

Example C94_ex : h_resize (fun k => Nat.eqb k 2) 4 host49 = (Throw bad_alloc, [HScalar [3]; HVec 0 [1; 2; 4; 0]; HJag [[7]; []; [8; 9]]]).
Proof. reflexivity. Qed.
