(** Properties C01 and C02. *)
From Verif Require Import Base IntMath IntMathProofs.

(** C01: [round_up n] is the least [i < 64] with [n <= 2^i]. *)
Theorem C01_round_up : forall n, 0 <= n <= 2 ^ 63 ->
  0 <= round_up n < 64 /\ n <= 2 ^ round_up n /\
  (forall j, 0 <= j < round_up n -> 2 ^ j < n).
Proof. exact round_up_spec. Qed.
Print Assumptions C01_round_up.

(** C01, sizes above [2^63]: release builds return 0, debug builds assert. *)
Theorem C01_round_up_large : forall n, 2 ^ 63 < n < 2 ^ 64 ->
  round_up n = 0 /\ round_up_checked n = UB.
Proof. exact round_up_large_both. Qed.
Print Assumptions C01_round_up_large.

Example C01_round_up_ex : 0 <= 300 <= 2 ^ 63 /\ round_up 300 = 9.
Proof. split; [lia|reflexivity]. Qed.
Example C01_round_up_large_ex : 2 ^ 63 < 2 ^ 63 + 1 < 2 ^ 64.
Proof. lia. Qed.

(** C02 *)
Theorem C02_log2 : forall x, 0 < x < 2 ^ 64 ->
  exists r, log2 x = Some r /\ 0 <= r < 64 /\ 2 ^ r <= x < 2 ^ (r + 1).
Proof. exact log2_spec. Qed.
Print Assumptions C02_log2.

Theorem C02_log2_ri : forall x, 0 < x < 2 ^ 64 ->
  exists r, log2_ri x = Some r /\ 0 <= r <= 64 /\ x <= 2 ^ r /\
            (forall j, 0 <= j < r -> 2 ^ j < x).
Proof. exact log2_ri_spec. Qed.
Print Assumptions C02_log2_ri.

Theorem C02_is_power_of_2 : forall x, 0 <= x < 2 ^ 64 ->
  (is_power_of_2 x = true <-> x = 0 \/ exists k, 0 <= k /\ x = 2 ^ k).
Proof. exact is_power_of_2_spec. Qed.
Print Assumptions C02_is_power_of_2.

Example C02_ex : 0 < 1000 < 2 ^ 64 /\ log2 1000 = Some 9 /\ log2_ri 1000 = Some 10 /\
  is_power_of_2 1000 = false /\ is_power_of_2 1024 = true.
Proof. vm_compute. repeat split; reflexivity. Qed.
