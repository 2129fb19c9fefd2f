(** Properties C37, C38, C51, C73, C74: device_vector and edm::device. *)
From Verif Require Import Base BaseLemmas DeviceVector DeviceVectorProofs AppendConc AppendConcProofs.
From Coq Require Import Permutation.

(** C37.  [lstep] is the behaviour of the calls on a list of at most [cap] elements
    ([None] if the call is not allowed), [holds s l] says that the size counter is the
    length of [l] and the first slots hold its elements, [clean s] that no other slot
    holds an object. *)
Theorem C37_step : forall (A : Type) (dflt : A) (s : dvec A) l o r l',
  holds s l -> lstep dflt (d_cap s) l o = Some (r, l') ->
  exists s', dstep dflt s o = Ret (r, s') /\ holds s' l' /\ d_cap s' = d_cap s /\
    (explicit o = true -> clean s -> clean s').
Proof. exact @step_thm. Qed.
Print Assumptions C37_step.

Theorem C37_runs : forall (A : Type) (dflt : A) ops (s : dvec A) l rs l',
  holds s l -> lruns dflt (d_cap s) l ops = Some (rs, l') ->
  exists s', druns dflt s ops = Ret (rs, s') /\ holds s' l' /\ d_cap s' = d_cap s /\
    (forallb explicit ops = true -> clean s -> clean s').
Proof. exact @runs_thm. Qed.
Print Assumptions C37_runs.

Theorem C37_elements : forall (A : Type) (s : dvec A) v, holds s (map Some v) ->
  d_elements s = Ret v /\ dv_size s = Z.of_nat (length v).
Proof. exact @elements_thm. Qed.
Print Assumptions C37_elements.

Theorem C37_objects : forall (A : Type) (s : dvec A) l, holds s l -> clean s ->
  forall i c, nth_error (d_mem s) i = Some c -> (is_object c = true <-> Z.of_nat i < dv_size s).
Proof. exact @objects_thm. Qed.
Print Assumptions C37_objects.

Definition d5 : dvec Z := mkD 5 (Some 2) [Val 7; Val 8; Raw; Raw; Raw].
Definition ops5 : list (dop Z) :=
  [OPush (ARef 0); OEmplace 9; OAt 2; OPop; OResize 5 (ARef 1); OBack; OResizeDefault 1; OBulkVal 3 (ARef 0); OSize;
   OAssign 2 (AVal 4); OBulk 1; OBulkImplicit 2; OResizeImplicit 3; OFront; OAssignRange [1; 2; 3; 4; 5]; OGet 4; OClear; OEmpty].
Example C37_ex : holds d5 [Some 7; Some 8] /\ clean d5 /\
  lruns 0 5 [Some 7; Some 8] ops5 =
    Some ([RSize 2; RVal 9; RVal 7; RSize 3; RUnit; RVal 8; RUnit; RSize 1; RSize 4; RUnit; RSize 2; RSize 3; RUnit; RVal 4; RUnit; RVal 5; RUnit; RBool true], []) /\
  druns 0 d5 ops5 =
    Ret ([RSize 2; RVal 9; RVal 7; RSize 3; RUnit; RVal 8; RUnit; RSize 1; RSize 4; RUnit; RSize 2; RSize 3; RUnit; RVal 4; RUnit; RVal 5; RUnit; RBool true],
         mkD 5 (Some 0) [Raw; Raw; Raw; Raw; Raw]).
Proof.
  split; [split; [cbn; lia|split; [reflexivity|split; reflexivity]]|]. split; [|split; reflexivity].
  intros [|[|[|[|[|i]]]]] Hi c Hc; cbn in *; try lia; try congruence. destruct i; discriminate.
Qed.

(** C38: push_back and emplace_back. *)
Theorem C38_push_back : forall (A : Type) (s : dvec A) l vs sched,
  holds s l -> len l + Z.of_nat (length vs) <= d_cap s ->
  exists s', c_run (mkC (d_cap s) (len l) [d_mem s] (map push_thread vs)) sched = Ret s' /\
  forall idxs, length idxs = length vs -> c_thr s' = map push_returned (combine idxs vs) ->
    Permutation idxs (map Z.of_nat (seq (length l) (length vs))) /\
    c_size s' = len l + Z.of_nat (length vs) /\
    exists m, c_mem s' = [m] /\
      (forall i a x, nth_error vs i = Some a -> nth_error idxs i = Some x -> nth_error m (Z.to_nat x) = Some (Val a)) /\
      (forall p, (p < length l)%nat -> nth_error m p = nth_error (d_mem s) p) /\
      exists new, Permutation new vs /\ holds (mkD (d_cap s) (Some (c_size s')) m) (l ++ map Some new).
Proof. exact @push_back_thm. Qed.
Print Assumptions C38_push_back.

(** C38: any mixture with bulk_append. *)
Theorem C38_append : forall (A : Type) (s : dvec A) l ops sched,
  holds s l -> Forall append_call ops -> len l + sum_n ops <= d_cap s ->
  exists s', c_run (mkC (d_cap s) (len l) [d_mem s] (map TIdle ops)) sched = Ret s' /\
  forall idxs, length idxs = length ops -> c_thr s' = map (fun p => TDone (fst p) (snd p)) (combine idxs ops) ->
    c_size s' = len l + sum_n ops /\
    (forall i o x, nth_error ops i = Some o -> nth_error idxs i = Some x -> len l <= x /\ x + o_n o <= len l + sum_n ops) /\
    (forall i j o u x y, i <> j -> nth_error ops i = Some o -> nth_error ops j = Some u ->
       nth_error idxs i = Some x -> nth_error idxs j = Some y -> x + o_n o <= y \/ y + o_n u <= x) /\
    (forall p, len l <= p < len l + sum_n ops -> exists i o x, nth_error ops i = Some o /\ nth_error idxs i = Some x /\ x <= p < x + o_n o) /\
    exists m, c_mem s' = [m] /\
      (forall i o a x p, nth_error ops i = Some o -> nth_error idxs i = Some x -> call_value o a -> x <= p < x + o_n o ->
         nth_error m (Z.to_nat p) = Some (Val a)) /\
      (forall p, (p < length l)%nat -> nth_error m p = nth_error (d_mem s) p).
Proof. exact @append_thm. Qed.
Print Assumptions C38_append.

(** Three calls in the order 2, 0, 1 of claims and with interleaved writes. *)
Example C38_ex : c_run (mkC 5 2 [d_mem d5] (map push_thread [10; 20; 30])) [2; 0; 0; 1; 2; 1; 0; 1; 2]%nat =
  Ret (mkC 5 5 [[Val 7; Val 8; Val 30; Val 10; Val 20]] (map push_returned (combine [3; 4; 2] [10; 20; 30]))).
Proof. reflexivity. Qed.
Example C38_ex_bulk : c_run (mkC 5 2 [d_mem d5] (map TIdle [op_bulk_append 2 10; op_push_back 20])) [1; 0; 0; 1; 0; 0; 1]%nat =
  Ret (mkC 5 5 [[Val 7; Val 8; Val 20; Val 10; Val 10]] (map (fun p => TDone (fst p) (snd p)) (combine [3; 2] [op_bulk_append 2 10; op_push_back 20]))).
Proof. reflexivity. Qed.

(** C51. *)
Theorem C51_push_back_default : forall (A : Type) cap k n (M : list (list (cell A))) dflts sched,
  cap < 2 ^ 32 -> Z.of_nat k + Z.of_nat n <= cap -> length M = length dflts -> Forall (fun m => Z.of_nat (length m) = cap) M ->
  exists s', c_run (mkC cap (Z.of_nat k) M (repeat (edm_thread dflts) n)) sched = Ret s' /\
  forall idxs, length idxs = n -> c_thr s' = map (edm_returned dflts) idxs ->
    Permutation idxs (map Z.of_nat (seq k n)) /\ c_size s' = Z.of_nat k + Z.of_nat n /\
    length (c_mem s') = length dflts /\
    forall j m0 m d, nth_error M j = Some m0 -> nth_error (c_mem s') j = Some m -> nth_error dflts j = Some d ->
      (forall p, (k <= p < k + n)%nat -> nth_error m p = Some (Val d)) /\
      (forall p, (p < k)%nat \/ (k + n <= p)%nat -> nth_error m p = nth_error m0 p).
Proof. exact @push_back_default_thm. Qed.
Print Assumptions C51_push_back_default.

Example C51_ex : c_run (mkC 3 1 [[Val 1; Raw; Raw]; [Val 2; Raw; Raw]] (repeat (edm_thread [50; 60]) 2)) [1; 0; 1; 0; 0; 1; 0; 1]%nat =
  Ret (mkC 3 3 [[Val 1; Val 50; Val 50]; [Val 2; Val 60; Val 60]] (map (edm_returned [50; 60]) [2; 1])).
Proof. reflexivity. Qed.

(** C73 does not hold: the sum in the assert of bulk_append_implicit wraps; the call
    succeeds and the vector shrinks. *)
Theorem C73_refuted : exists (A : Type) (dflt : A) s l n r s', holds s l /\ 0 <= n < 2 ^ 32 /\ d_cap s < len l + n /\
  d_bulk_append_implicit (A:=A) s n = Ret (r, s') /\ dv_size s' < len l.
Proof.
  exists Z, 0, d5, [Some 7; Some 8], (2 ^ 32 - 1), 2.
  assert (HL : forall n i (m : list (cell Z)), exists m', slot_loop slot_implicit m i n = Ret m').
  { induction n as [|n IH]; intros i m; cbn [slot_loop]; [eauto|]. unfold slot_implicit. cbn [bind]. apply IH. }
  destruct (HL (Z.to_nat (2 ^ 32 - 1)) 2 (d_mem d5)) as (m' & Em). exists (mkD 5 (Some 1) m').
  split; [split; [cbn; lia|split; [reflexivity|split; reflexivity]]|]. split; [lia|]. split; [cbn; lia|]. split; [|cbn; lia].
  unfold d_bulk_append_implicit. cbn [d_counter d_size d5 bind]. unfold assert. change (add32 2 (2 ^ 32 - 1)) with 1. cbn [d_cap Z.leb Z.compare Pos.compare Pos.compare_cont].
  change (d_mem {| d_cap := 5; d_size := Some 2; d_mem := [Val 7; Val 8; Raw; Raw; Raw] |}) with (d_mem d5). rewrite Em. reflexivity.
Qed.
Print Assumptions C73_refuted.

(** C74 does not hold: between the claim and the construction a reader of the size
    sees an element that does not exist yet. *)
Theorem C74_refuted : exists (s : dvec Z) l vs sched s' m p, holds s l /\ len l + Z.of_nat (length vs) <= d_cap s /\
  c_run (mkC (d_cap s) (len l) [d_mem s] (map push_thread vs)) sched = Ret s' /\ c_mem s' = [m] /\
  0 <= p < c_size s' /\ slot_read m p = UB.
Proof.
  exists d5, [Some 7; Some 8], [9], [0%nat]. do 2 eexists. exists 2.
  split; [split; [cbn; lia|split; [reflexivity|split; reflexivity]]|]. split; [cbn; lia|]. split; [reflexivity|].
  split; [reflexivity|]. split; [cbn; lia|reflexivity].
Qed.
Print Assumptions C74_refuted.
