(** C156: kernels that filter vector buffers are free of data races. *)
From Verif Require Import Races RacesProofs.
From Verif Require Import Base BaseLemmas Copy Kernel BufProg BufProgProofs KernProg KernProgProofs KernRaces KernRacesProofs.
From Coq Require Import ZArith List Bool Lia.
Import ListNotations.
Local Open Scope Z_scope.

(** After any legal program, in a legal launch: thread [p] makes access [a] after the steps [before], thread
    [q] makes access [b] after the further steps [mid]. *)
Theorem C156_races : forall orc ops rs st l i j g nthr sched r f u before mid m1 thr1 m2 thr2 p q tp tq a b,
  kruns (bst0 orc) ops = (rs, st) -> upstream_ok (ulog (b_w st)) -> kjudge_all [] ops rs = Good l ->
  kjudge l (KLaunch i j g nthr sched) r <> Illegal -> get_buf st i = Some f -> get_buf st j = Some u ->
  let run := f_run (f_esz f) (f_view f) (f_esz u) (f_view u) g in
  let accesses := f_access (f_esz f) (f_view f) (f_esz u) (f_view u) in
  run (b_m st, map FSize (seq 0 nthr)) before = Ret (m1, thr1) -> run (m1, thr1) mid = Ret (m2, thr2) -> p <> q ->
  nth_error thr1 p = Some tp -> nth_error thr2 q = Some tq -> In a (accesses tp) -> In b (accesses tq) ->
  let share_a_byte := exists x, a_ptr a <= x < a_ptr a + a_len a /\ a_ptr b <= x < a_ptr b + a_len b in
  let one_writes := a_how a = atomic_add \/ a_how a = plain_write \/ a_how b = atomic_add \/ a_how b = plain_write in
  let both_atomic := (a_how a = atomic_add \/ a_how a = atomic_load) /\ (a_how b = atomic_add \/ a_how b = atomic_load) in
  share_a_byte -> one_writes -> both_atomic.
Proof.
  intros orc ops rs st l i j g nthr sched r f u before mid m1 thr1 m2 thr2 p q tp tq a b E HU J L Gf Gu run accesses E1 E2 D N1 N2 A B share w both S W.
  destruct (program_launch orc ops rs st l i j g nthr sched r f u E HU J L Gf Gu) as (_ & H).
  exact (no_conflict_atomic a b (H before mid m1 thr1 m2 thr2 p q tp tq a b E1 E2 D N1 N2 A B) S W).
Qed.
Print Assumptions C156_races.

(** No schedule of a legal launch, complete or not, has undefined behaviour. *)
Theorem C156_defined : forall orc ops rs st l i j g nthr sched r f u any,
  kruns (bst0 orc) ops = (rs, st) -> upstream_ok (ulog (b_w st)) -> kjudge_all [] ops rs = Good l ->
  kjudge l (KLaunch i j g nthr sched) r <> Illegal -> get_buf st i = Some f -> get_buf st j = Some u ->
  exists m' thr', f_run (f_esz f) (f_view f) (f_esz u) (f_view u) g (b_m st, map FSize (seq 0 nthr)) any = Ret (m', thr').
Proof.
  intros orc ops rs st l i j g nthr sched r f u any E HU J L Gf Gu.
  destruct (program_launch orc ops rs st l i j g nthr sched r f u E HU J L Gf Gu) as (H & _). exact (H any).
Qed.
Print Assumptions C156_defined.

(** Two buffers; the input is resizable and has two elements.  After some steps, one thread is going to read
    the size of the input, one to read its element, one to write an element of the output. *)
Definition rops : list kop :=
  [KHost (ONew 2 2 3 true (fun _ => 9)); KHost (ONew 2 2 4 true (fun x => x mod 256)); KHost (OMemset 0 7); KHost (OSetSize 0 3); KHost (OSetup 1)].
Definition rorc (n : nat) : option Z := nth n [Some 65536; Some 65568] None.
Example C156_ex : exists st l f u, snd (kruns (bst0 rorc) rops) = st /\ upstream_ok (ulog (b_w st)) /\
  kjudge_all [] rops (fst (kruns (bst0 rorc) rops)) = Good l /\
  kjudge l (KLaunch 0 1 (fun e => Some e) 3 (concat (repeat [0; 1; 2] 5)%nat)) RStuck <> Illegal /\
  get_buf st 0 = Some f /\ get_buf st 1 = Some u /\
  match f_run (f_esz f) (f_view f) (f_esz u) (f_view u) (fun e => Some e) (b_m st, map FSize (seq 0 3)) [0; 2; 2; 2]%nat with
  | Ret (m', thr) => map (f_access (f_esz f) (f_view f) (f_esz u) (f_view u)) thr =
      [[mkAccess 65536 4 atomic_load; mkAccess 65540 2 plain_read]; [mkAccess 65536 4 plain_read]; [mkAccess 65572 2 plain_write]]
  | _ => False
  end.
Proof.
  eexists _, _, _, _. split; [reflexivity|]. split; [apply upstream_okb_ok; vm_compute; reflexivity|]. split; [vm_compute; reflexivity|].
  split; [vm_compute; discriminate|]. split; [reflexivity|]. split; [reflexivity|]. vm_compute. reflexivity.
Qed.
