(** Stacks of memory resources: C140. *)
From Verif Require Import Base BaseLemmas IntMath Contiguous Pool PoolTheorems Buddy Forwarding
  Stack StackProofs StackLayers StackBuddy StackPool StackMonitor StackExamples PoolExamples.
From Verif Require Instrument.

(** A layer that may take any place in a stack. *)
Definition layer_ok (l : layer) : Prop :=
  match l with
  | LPool o => opts_safe o /\ pow2 (alignment o) /\ alignment o <= 16 /\ max_bytes o <= 2 ^ 63
  | LContiguous n => 0 < n <= 2 ^ 63
  | LMonitored k st0 => ~ In k (Instrument.i_post st0) /\ ~ In k (Instrument.i_pred st0)
  | _ => True
  end.

(** A legal history of calls, newest first: requests of 1 to 2^63 bytes with an alignment of
    at most 16, and only live blocks are freed, with their size and alignment. *)
Fixpoint legal_calls (l : list uevent) : Prop :=
  match l with
  | [] => True
  | UAlloc s a _ :: l' => (0 < s <= 2 ^ 63 /\ pow2 a /\ a <= 16) /\ legal_calls l'
  | UFree p s a :: l' => In (mkBlock p s a) (ulive l') /\ legal_calls l'
  end.

Lemma legal_calls_eq l : legal_calls l <-> calls_ok l.
Proof. induction l as [|[s a x|p s a] l IH]; cbn [legal_calls calls_ok call_ok]; unfold req_ok; tauto. Qed.

Lemma layers_correct ls : Forall layer_ok ls -> Forall correct (map layer_res ls) /\ Forall asking (map layer_res ls).
Proof.
  induction 1 as [|l ls H HF (I1 & I2)]; cbn [map]; split; constructor; auto; clear I1 I2 HF ls;
    destruct l; cbn [layer_ok layer_res] in *.
  - exact binary_page_correct.
  - apply pool_correct. exact H.
  - apply contiguous_correct. exact H.
  - exact identity_correct.
  - apply conditional_correct.
  - exact debug_correct.
  - exact terminal_correct.
  - apply instrumenting_correct.
  - apply monitored_correct; apply H.
  - exact synchronized_correct.
  - exact binary_page_asking.
  - apply pool_asking.
  - apply contiguous_asking.
  - exact identity_asking.
  - apply conditional_asking.
  - exact debug_asking.
  - exact terminal_asking.
  - apply instrumenting_asking.
  - apply monitored_asking.
  - exact synchronized_asking.
Qed.

(** Whatever the height of the stack and the order of its layers. *)
Theorem C140_stack : forall ls top bottom, Forall layer_ok ls ->
  stacked (map layer_res ls) top bottom -> legal_calls top -> upstream_ok bottom ->
  upstream_ok top /\ pairwise_disjoint (ulive top) /\ legal_calls bottom /\
  forall b, In b (ulive top) -> (balign b | bptr b) /\ 0 < bptr b /\
    exists u, In u (ulive bottom) /\ bptr u <= bptr b /\ bptr b + bsize b <= bptr u + bsize u.
Proof.
  intros ls top bottom HL HS HC HU. destruct (layers_correct _ HL) as (K & _). rewrite legal_calls_eq in HC.
  destruct (stack_correct _ K _ _ HS HC HU) as (A1 & A2 & A3). split; [exact A1|].
  split; [apply ulive_disjoint; exact A1|]. split; [apply legal_calls_eq; exact A2|]. intros b Hb.
  destruct (ulive_props _ _ A1 Hb) as (U1 & U2 & U3). split; [exact U3|]. split; [exact U1|].
  destruct (A3 b Hb) as (u & Hu & Hin). exists u. split; [exact Hu|].
  apply inside_iff in Hin; [lia|exact (calls_live_pos _ _ HC Hb)].
Qed.
Print Assumptions C140_stack.

Theorem C140_defined : forall l ls top s w, layer_ok l -> Forall layer_ok ls ->
  runs (layer_res l) top s w -> legal_calls top ->
  (forall size align r s' w' bottom, 0 < size <= 2 ^ 63 -> pow2 align -> align <= 16 ->
     r_alloc (layer_res l) s w size align = (r, s', w') ->
     stacked (map layer_res ls) (ulog w') bottom -> upstream_ok bottom ->
     (exists p, r = Ret p) \/ r = Throw bad_alloc) /\
  (forall b bottom, In b (ulive top) -> stacked (map layer_res ls) (ulog w) bottom -> upstream_ok bottom ->
     exists s' w', r_free (layer_res l) s w (bptr b) (bsize b) (balign b) = (Ret tt, s', w')).
Proof.
  intros l ls top s w Hl HL HR HC. destruct (layers_correct _ HL) as (K & _).
  destruct (layers_correct [l] (Forall_cons _ Hl (Forall_nil _))) as (K1 & _). apply Forall_inv in K1.
  rewrite legal_calls_eq in HC. destruct (stack_defined _ _ K1 K _ _ _ HR HC) as (D1 & D2). split; [|exact D2].
  intros size align r s' w' bottom H1 H2 H3. apply D1. split; [exact H1|split; assumption].
Qed.
Print Assumptions C140_defined.

(** Every legal call can be made, and what happens below the stack is at most one call. *)
Theorem C140_progress : forall ls top bottom (answer : list uevent -> Z -> Z -> option Z), Forall layer_ok ls ->
  (forall l s a, upstream_ok l -> 0 < s <= 2 ^ 63 -> pow2 a -> a <= 16 -> upstream_ok (UAlloc s a (answer l s a) :: l)) ->
  stacked (map layer_res ls) top bottom -> legal_calls top -> upstream_ok bottom ->
  (forall size align, 0 < size <= 2 ^ 63 -> pow2 align -> align <= 16 ->
     exists res bottom', stacked (map layer_res ls) (UAlloc size align res :: top) bottom' /\
       (bottom' = bottom \/ exists s a, (0 < s <= 2 ^ 63 /\ pow2 a /\ a <= 16) /\
          bottom' = UAlloc s a (answer bottom s a) :: bottom)) /\
  (forall b, In b (ulive top) ->
     exists bottom', stacked (map layer_res ls) (UFree (bptr b) (bsize b) (balign b) :: top) bottom' /\
       (bottom' = bottom \/ exists u, In u (ulive bottom) /\
          bottom' = UFree (bptr u) (bsize u) (balign u) :: bottom)).
Proof.
  intros ls top bottom answer HL HA HS HC HU. destruct (layers_correct _ HL) as (K1 & K2). rewrite legal_calls_eq in HC.
  split.
  - intros size align H1 H2 H3. apply (stack_progress _ answer K1 K2); auto; [|split; [exact H1|split; assumption]].
    intros l s a U (R1 & R2 & R3). auto.
  - intros b Hb. apply (stack_free_progress _ K1); auto.
Qed.
Print Assumptions C140_progress.

Theorem C140_released : forall ls top bottom, Forall layer_ok ls ->
  destroyed (map layer_res ls) top bottom -> legal_calls top -> ulive top = [] -> upstream_ok bottom ->
  legal_calls bottom /\ ulive bottom = [].
Proof.
  intros ls top bottom HL HD HC H0 HU. destruct (layers_correct _ HL) as (K & _). rewrite legal_calls_eq in HC |- *.
  exact (stack_released _ K _ _ HD HC H0 HU).
Qed.
Print Assumptions C140_released.

(** A pool with the default options on a debug resource on a binary page resource on a
    contiguous resource of 4 MiB; the last but one request finds the memory exhausted. *)
Example C140_layers_ex : Forall layer_ok [LPool default_options; LDebug; LBinaryPage; LContiguous (2 ^ 22)].
Proof.
  constructor; [|constructor; [exact Logic.I|constructor; [exact Logic.I|constructor; [cbn [layer_ok]; lia|constructor]]]].
  cbn [layer_ok]. split; [exact default_safe|]. split; [exists 4; split; [lia|reflexivity]|]. split; vm_compute; congruence.
Qed.
Example C140_stack_ex :
  stacked (map layer_res [LPool default_options; LDebug; LBinaryPage; LContiguous (2 ^ 22)]) (rev stk0) (rev stk4) /\
  legal_calls (rev stk0) /\ upstream_ok (rev stk4) /\ length (ulive (rev stk0)) = 3%nat.
Proof.
  split; [exact stk_stacked|]. split; [|split; [apply upstream_okb_ok; vm_compute; reflexivity|vm_compute; reflexivity]].
  cbn [rev stk0 app legal_calls].
  repeat split; try (unfold stk_base; lia); try (eexists; split; [|reflexivity]; lia); try (vm_compute; tauto).
  all: first [exists 2; split; [lia|reflexivity]|exists 3; split; [lia|reflexivity]|exists 4; split; [lia|reflexivity]].
Qed.
Example C140_released_ex :
  destroyed (map layer_res [LPool default_options; LDebug; LBinaryPage; LContiguous (2 ^ 22)]) (rev stk0d) (rev stk4d) /\
  legal_calls (rev stk0d) /\ ulive (rev stk0d) = [] /\ upstream_ok (rev stk4d).
Proof.
  split; [exact stk_destroyed|]. split; [|split; [vm_compute; reflexivity|apply upstream_okb_ok; vm_compute; reflexivity]].
  cbn [rev stk0 stk0d app legal_calls].
  repeat split; try (unfold stk_base; lia); try (vm_compute; tauto).
  all: first [exists 2; split; [lia|reflexivity]|exists 3; split; [lia|reflexivity]|exists 4; split; [lia|reflexivity]].
Qed.

(** A monitored resource with further hooks on an instrumenting resource on a contiguous
    resource; a large request fails. *)
Definition mon_hooks : Instrument.istate := Instrument.mkI [1%nat] [2%nat; 3%nat] [1%nat] [].
Definition mon_top : list uevent :=
  [UAlloc (2 ^ 20) 16 (Some stk_base); UAlloc (2 ^ 22) 16 None; UAlloc 100 8 (Some (stk_base + 2 ^ 20)); UFree stk_base (2 ^ 20) 16].
Example C140_monitored_ex :
  Forall layer_ok [LMonitored 7 mon_hooks; LInstrumenting Instrument.i_init; LContiguous (2 ^ 22)] /\
  stacked (map layer_res [LMonitored 7 mon_hooks; LInstrumenting Instrument.i_init; LContiguous (2 ^ 22)]) (rev mon_top) (rev stk4) /\
  legal_calls (rev mon_top) /\ upstream_ok (rev stk4) /\ ulive (rev mon_top) = [mkBlock (stk_base + 2 ^ 20) 100 8].
Proof.
  split; [constructor; [split; cbn; intuition discriminate|constructor; [exact Logic.I|constructor; [cbn [layer_ok]; lia|constructor]]]|].
  split.
  { cbn [map layer_res stacked].
    destruct (replay_layer (monitored_res 7 mon_hooks) mon_top (Instrument.attach mon_hooks 7, Instrument.mon_init)
      (mkWorld [] (answers mon_top))) with (l := rev mon_top) as (s1 & w1 & R1 & E1);
      [split; reflexivity|vm_compute; reflexivity|].
    exists s1, w1. split; [exact R1|]. rewrite E1.
    destruct (replay_layer (instrumenting_res Instrument.i_init) mon_top Instrument.i_init
      (mkWorld [] (answers mon_top))) with (l := rev mon_top) as (s2 & w2 & R2 & E2);
      [split; reflexivity|vm_compute; reflexivity|].
    exists s2, w2. split; [exact R2|]. rewrite E2.
    destruct (replay_layer (contiguous_res (2 ^ 22)) mon_top (Contiguous.mkC (2 ^ 22) stk_base stk_base)
      (mkWorld (rev stk4) (answers stk4))) with (l := rev stk4) as (s4 & w4 & R4 & E4);
      [exists (mkWorld [] (answers stk4)); split; reflexivity|vm_compute; reflexivity|].
    exists s4, w4. split; [exact R4|exact E4]. }
  split; [|split; [apply upstream_okb_ok; vm_compute; reflexivity|vm_compute; reflexivity]].
  cbn [rev mon_top app legal_calls]. repeat split; try (unfold stk_base; lia); try (vm_compute; tauto).
  all: first [exists 4; split; [lia|reflexivity]|exists 3; split; [lia|reflexivity]].
Qed.
