(** Concrete memories for the theorems on copies. *)
From Verif Require Import Base BaseLemmas Copy CopyProofs CopyJaggedProofs CopyJaggedTheorems.

(** Accessible addresses 64 to 511; everything from 256 is device memory, and copy types
    are checked.  The bytes are their own addresses. *)
Definition exm0 : cmem := mkM (fun x => if (64 <=? x) && (x <? 512) then Some (x mod 256) else None) (fun x => 256 <=? x) true.
(** Sizes 2, 0, 1 of the inner vectors at 128, and the size 3 at 256. *)
Definition exm : cmem := put_bytes (put_bytes exm0 128 (flat_map le32 [2; 0; 1])) 256 (le32 3).
Lemma exm_acc a n : 64 <= a -> a + n <= 512 -> acc exm a n.
Proof.
  intros H1 H2 x Hx. unfold exm, put_bytes. cbn [m_byte]. change (Z.of_nat (length (le32 3))) with 4.
  change (Z.of_nat (length (flat_map le32 [2; 0; 1]))) with 12.
  destruct ((256 <=? x) && (x <? 256 + 4)) eqn:E; [intros C; apply nth_error_None in C; cbn in C; lia|].
  destruct ((128 <=? x) && (x <? 128 + 12)) eqn:E'; [intros C; apply nth_error_None in C; cbn in C; lia|].
  unfold exm0. cbn [m_byte]. replace ((64 <=? x) && (x <? 512)) with true by lia. discriminate.
Qed.

(** Three inner vectors of capacities 2, 0 and 1 with elements of 4 bytes: resizable
    source, resizable target, both contiguous. *)
Definition ex_from : list vview := [mkV 2 128 64; mkV 0 132 72; mkV 1 136 72].
Definition ex_to : list vview := [mkV 2 300 400; mkV 0 304 408; mkV 1 308 408].
(** A target that is neither contiguous nor resizable, with larger capacities. *)
Definition ex_to' : list vview := [mkV 2 0 400; mkV 0 0 0; mkV 3 0 424].
Definition ex_data1 : list Z := [64; 65; 66; 67; 68; 69; 70; 71].
Definition ex_data3 : list Z := [72; 73; 74; 75].
Definition ex_rows (to : list vview) : list jrow :=
  map (fun '(f, t, (n, d)) => mkRow f t n d) (combine (combine ex_from to) [(2, ex_data1); (0, []); (1, ex_data3)]).

Ltac row_tac := unfold row_ok, view_ok; cbn [r_from r_to r_n r_data v_cap v_sizep v_ptr];
  repeat split; try lia; try (apply exm_acc; lia); try (intros x Hx; exfalso; lia); try (vm_compute; reflexivity).
Lemma ex_rows_ok : Forall (row_ok 4 host_to_device exm) (ex_rows ex_to) /\ Forall (row_ok 4 host_to_device exm) (ex_rows ex_to').
Proof. split; repeat constructor; row_tac. Qed.
Lemma ex_rows_apart : rows_apart 4 (ex_rows ex_to) /\ rows_apart 4 (ex_rows ex_to').
Proof.
  split; split.
  1,3: repeat constructor; unfold payloads_apart, apart; cbn [r_to v_ptr v_cap]; intros x Hx; lia.
  all: intros r r' I I'; cbn in I, I'; repeat (destruct I as [<-|I]; [repeat (destruct I' as [<-|I']; [unfold payloads_apart, apart; cbn [r_from r_to v_ptr v_cap]; intros x Hx; lia|]); destruct I'|]); destruct I.
Qed.
Lemma ex_sizes : jagged_sizes exm ex_from [2; 0; 1].
Proof.
  split; [repeat constructor; cbn; lia|]. right. exists 128. split; [|split; [lia|vm_compute; reflexivity]]. split; [lia|].
  intros [|[|[|i]]] v E; cbn in E; try discriminate; try (injection E as <-; reflexivity). destruct i; discriminate.
Qed.
Lemma ex_sizes_at : sizes_at 300 ex_to.
Proof.
  split; [lia|]. intros [|[|[|i]]] v E; cbn in E; try discriminate; try (injection E as <-; reflexivity). destruct i; discriminate.
Qed.
Lemma ex_targets : target_sizes 4 exm (ex_rows ex_to) /\ target_sizes 4 exm (ex_rows ex_to').
Proof.
  split; [right; exists 300|left; repeat constructor]. split; [exact ex_sizes_at|]. split; [lia|]. split; [apply exm_acc; cbn; lia|].
  intros r x I. change (4 * Z.of_nat (length (ex_rows ex_to))) with 12. unfold within, payload.
  cbn in I; repeat (destruct I as [<-|I]; [cbn [r_from r_to v_ptr v_cap]; unfold within; lia|]); destruct I.
Qed.
