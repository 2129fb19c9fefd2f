(** Graphs of memory resources: C143. *)
From Verif Require Import Base BaseLemmas IntMath Contiguous Pool Buddy Forwarding ForwardingProofs
  Stack StackProofs PropStack Graph GraphProofs GraphProgress GraphExamples.

(** A graph, the resource with the highest number first: the lowest resources have the numbers
    0 to [B - 1], and each of the others only uses ones with lower numbers than its own. *)
Fixpoint graph_ok (B : nat) (gs : list gnode) : Prop :=
  match gs with
  | [] => True
  | g :: gs' =>
      match g with
      | GOne l u => layer_ok l /\ (u < B + length gs')%nat
      | GChoice dec => forall n s a, (dec n s a < B + length gs')%nat
      | GCoalescing ups => forall u, In u ups -> (u < B + length gs')%nat
      end /\ graph_ok B gs'
  end.
(** A legal history of calls to resources with numbers below [K], newest first: requests of 1
    to 2^63 bytes with an alignment of at most 16, and only live blocks are freed, with their
    size and alignment and through the resource they came from. *)
Fixpoint legal_graph_calls (K : nat) (l : list (nat * uevent)) : Prop :=
  match l with
  | [] => True
  | (i, UAlloc s a _) :: l' => (i < K)%nat /\ (0 < s <= 2 ^ 63 /\ pow2 a /\ a <= 16) /\ legal_graph_calls K l'
  | (i, UFree p s a) :: l' => (i < K)%nat /\ In (i, mkBlock p s a) (mlive l') /\ legal_graph_calls K l'
  end.

Lemma legal_graph_calls_eq K l : legal_graph_calls K l <-> tcalls_ok l /\ lower K l.
Proof.
  induction l as [|[i [s a x|p s a]] l IH]; cbn [legal_graph_calls tcalls_ok].
  - split; [intros _; split; [exact Logic.I|constructor]|auto].
  - unfold tcall_ok, req_ok, lower in *. rewrite Forall_cons_iff. cbn [fst snd]. tauto.
  - unfold tcall_ok, lower in *. rewrite Forall_cons_iff. cbn [fst snd]. tauto.
Qed.
Lemma graph_nodes B gs : graph_ok B gs -> Forall ncorrect (map gnode_node gs) /\ Forall nasking (map gnode_node gs) /\ wired B (map gnode_node gs).
Proof.
  induction gs as [|g gs IH]; cbn [graph_ok map wired]; [repeat split; constructor|].
  intros (H & HG). destruct (IH HG) as (I1 & I2 & I3). rewrite map_length.
  assert (K : ncorrect (gnode_node g) /\ nasking (gnode_node g) /\ nbelow (B + length gs) (gnode_node g)).
  { destruct g as [l u|dec|ups]; cbn [gnode_node].
    - destruct H as (Hl & Hu). destruct (layers_correct [l] (Forall_cons _ Hl (Forall_nil _))) as (L1 & L2). apply Forall_inv in L1, L2.
      split; [apply one_node_correct; exact L1|]. split; [apply one_node_asking; exact L2|apply one_node_below; exact Hu].
    - split; [apply choice_node_correct|]. split; [apply choice_node_asking|apply choice_node_below; exact H].
    - split; [apply coalescing_node_correct|]. split; [apply coalescing_node_asking|apply coalescing_node_below, Forall_forall; exact H]. }
  destruct K as (K1 & K2 & K3). repeat split; auto.
Qed.

(** Whatever the graph, and whichever of its resources the user calls. *)
Theorem C143_graph : forall B gs top bottom, graph_ok B gs ->
  graph_runs B (map gnode_node gs) top bottom -> legal_graph_calls (B + length gs) top -> upstream_ok (map snd bottom) ->
  upstream_ok (map snd top) /\ pairwise_disjoint (map snd (mlive top)) /\ legal_graph_calls B bottom /\
  forall i b, In (i, b) (mlive top) -> (balign b | bptr b) /\ 0 < bptr b /\
    exists j u, In (j, u) (mlive bottom) /\ bptr u <= bptr b /\ bptr b + bsize b <= bptr u + bsize u.
Proof.
  intros B gs top bottom HG HR HC HU. destruct (graph_nodes _ _ HG) as (K & _ & HW). apply legal_graph_calls_eq in HC. destruct HC as (HC & HL).
  destruct (graph_correct _ _ K _ _ HR HC HU) as (A1 & A2 & A3). split; [exact A1|]. split; [apply tok_disjoint; assumption|].
  split. { apply legal_graph_calls_eq. split; [exact A2|]. eapply graph_lower; [exact HW|exact HR|]. rewrite map_length. exact HL. }
  intros i b Hb. destruct (tok_props _ _ HC A1 Hb) as (P1 & P2 & P3). split; [exact P3|]. split; [exact P1|].
  destruct (A3 _ Hb) as ([j u] & Hu & Hin). exists j, u. split; [exact Hu|]. cbn [snd] in *.
  pose proof (tlive_pos _ _ HC Hb) as Hp. cbn [snd] in Hp. apply inside_iff in Hin; [lia|exact Hp].
Qed.
Print Assumptions C143_graph.

(** A legal call never ends in undefined behaviour, in any resource of the graph. *)
Theorem C143_defined : forall B g gs top s w out, graph_ok B (g :: gs) ->
  served (B + length gs) (gnode_node g) top s w out -> legal_graph_calls (B + S (length gs)) top ->
  (forall size align r s' w' n bottom, 0 < size <= 2 ^ 63 -> pow2 align -> align <= 16 ->
     n_alloc (gnode_node g) s w size align = (r, s', w') -> mlog w' = n ++ mlog w ->
     graph_runs B (map gnode_node gs) (n ++ out) bottom -> upstream_ok (map snd bottom) ->
     (exists p, r = Ret p) \/ r = Throw bad_alloc) /\
  (forall b bottom, In ((B + length gs)%nat, b) (mlive top) ->
     graph_runs B (map gnode_node gs) out bottom -> upstream_ok (map snd bottom) ->
     exists s' w', n_free (gnode_node g) s w (bptr b) (bsize b) (balign b) = (Ret tt, s', w')).
Proof.
  intros B g gs top s w out HG HS HC. destruct (graph_nodes _ _ HG) as (K & _). inversion K as [|? ? K1 K2]; subst.
  apply legal_graph_calls_eq in HC. destruct (graph_defined B _ _ K1 K2 _ _ _ _ _ HS (proj1 HC)) as (D1 & D2). split; [|exact D2].
  intros size align r s' w' n bottom H1 H2 H3. apply D1. split; [exact H1|split; assumption].
Qed.
Print Assumptions C143_defined.

(** Every legal call can be made: an allocation leads to requests to the lowest resources only,
    whatever these answer, and a deallocation to deallocations of live blocks only. *)
Theorem C143_progress : forall B gs top bottom (answer : list (nat * uevent) -> nat -> Z -> Z -> option Z), graph_ok B gs ->
  (forall l u s a, legal_graph_calls B l -> upstream_ok (map snd l) -> (u < B)%nat -> 0 < s <= 2 ^ 63 -> pow2 a -> a <= 16 ->
     upstream_ok (UAlloc s a (answer l u s a) :: map snd l)) ->
  graph_runs B (map gnode_node gs) top bottom -> legal_graph_calls (B + length gs) top -> upstream_ok (map snd bottom) ->
  (forall i size align, (i < B + length gs)%nat -> 0 < size <= 2 ^ 63 -> pow2 align -> align <= 16 ->
     exists res n, graph_runs B (map gnode_node gs) ((i, UAlloc size align res) :: top) (n ++ bottom) /\
       upstream_ok (map snd (n ++ bottom)) /\
       forall n1 e n2, n = n1 ++ e :: n2 -> exists u s a, e = (u, UAlloc s a (answer (n2 ++ bottom) u s a)) /\ (u < B)%nat) /\
  (forall i b, In (i, b) (mlive top) ->
     exists n, graph_runs B (map gnode_node gs) ((i, UFree (bptr b) (bsize b) (balign b)) :: top) (n ++ bottom) /\
       legal_graph_calls B (n ++ bottom) /\ forall e, In e n -> exists j p s a, e = (j, UFree p s a)).
Proof.
  intros B gs top bottom answer HG HA HR HC HU. destruct (graph_nodes _ _ HG) as (K1 & K2 & HW).
  assert (HC' := HC). apply legal_graph_calls_eq in HC'. destruct HC' as (TC & LC).
  assert (LB : forall t b, graph_runs B (map gnode_node gs) t b -> lower (B + length gs) t -> lower B b).
  { intros t b G L. eapply graph_lower; [exact HW|exact G|]. rewrite map_length. exact L. }
  split.
  - intros i size align Hi H1 H2 H3.
    set (ans := fun l u s a => if lt_dec u B then if Forall_dec (fun x => (fst x < B)%nat) (fun x => lt_dec (fst x) B) l then answer l u s a else None else None).
    assert (HA' : forall l u s a, tok l -> tcalls_ok l -> req_ok s a -> tok ((u, UAlloc s a (ans l u s a)) :: l)).
    { intros l u s a T C (R1 & R2 & R3). unfold ans. destruct (lt_dec u B) as [Hu|_]; [|exact T].
      destruct (Forall_dec _ _ l) as [Hl|_]; [|exact T]. unfold tok. cbn [map snd].
      apply HA; auto. apply legal_graph_calls_eq. split; [exact C|exact Hl]. }
    destruct (graph_progress ans HA' B _ K1 K2 top bottom i size align HR TC HU) as (res & b' & G & AD); [split; [exact H1|split; assumption]|].
    assert (TB : tcalls_ok bottom) by (apply (graph_correct _ _ K1 _ _ HR TC HU)).
    destruct (added_ok ans HA' _ _ AD HU TB) as (T' & C').
    assert (L' : lower B b'). { apply (LB _ _ G). constructor; [exact Hi|exact LC]. }
    assert (D : exists n, b' = n ++ bottom /\ forall n1 e n2, n = n1 ++ e :: n2 -> exists u s a, e = (u, UAlloc s a (answer (n2 ++ bottom) u s a)) /\ (u < B)%nat).
    { clear - AD L'. induction AD as [|l' u s a AD IH HR].
      - exists []. split; [reflexivity|]. intros n1 e n2 E. destruct n1; discriminate.
      - inversion L' as [|? ? Lu Ll]; subst. cbn [fst] in Lu. destruct (IH Ll) as (n & -> & Hn).
        exists ((u, UAlloc s a (ans (n ++ bottom) u s a)) :: n). split; [reflexivity|]. intros n1 e n2 E. destruct n1 as [|x n1].
        + injection E as <- <-. exists u, s, a. split; [|exact Lu]. unfold ans. destruct (lt_dec u B); [|contradiction].
          destruct (Forall_dec _ _ (n ++ bottom)); [reflexivity|contradiction].
        + injection E as _ E. exact (Hn _ _ _ E). }
    destruct D as (n & -> & Hn). exists res, n. auto.
  - intros i b Hb. destruct (graph_free_progress B _ K1 top bottom i b HR TC HU Hb) as (n & G & F). exists n. split; [exact G|].
    assert (Hi : (i < B + length gs)%nat).
    { clear - LC Hb. induction LC as [|[j [s a [p|]|p s a]] l Hj HL IH]; cbn [mlive] in Hb; [destruct Hb| | |]; auto.
      - destruct Hb as [[= -> _]|Hb]; [exact Hj|auto].
      - apply IH. eapply tremove1_in; exact Hb. }
    assert (TF : tok (n ++ bottom)).
    { clear - HU F. induction F as [|[j [s a x|p s a]] n F1 F IH]; [exact HU|destruct F1|exact IH]. }
    assert (TC' : tcalls_ok ((i, UFree (bptr b) (bsize b) (balign b)) :: top)).
    { split; [|exact TC]. unfold tcall_ok. cbn [fst snd]. destruct b. exact Hb. }
    split.
    + apply legal_graph_calls_eq. split; [apply (graph_correct _ _ K1 _ _ G TC' TF)|]. apply (LB _ _ G). constructor; [exact Hi|exact LC].
    + intros [j [s a x|p s a]] He; rewrite Forall_forall in F; specialize (F _ He); [destruct F|]. exists j, p, s, a. reflexivity.
Qed.
Print Assumptions C143_progress.

(** After the destruction of the graph everything has been given back to the lowest resources. *)
Theorem C143_released : forall B gs top bottom, graph_ok B gs ->
  graph_destroyed B (map gnode_node gs) top bottom -> legal_graph_calls (B + length gs) top -> mlive top = [] -> upstream_ok (map snd bottom) ->
  legal_graph_calls B bottom /\ mlive bottom = [].
Proof.
  intros B gs top bottom HG HD HC H0 HU. destruct (graph_nodes _ _ HG) as (K & _ & HW). apply legal_graph_calls_eq in HC. destruct HC as (HC & HL).
  destruct (graph_released _ _ K _ _ HD HC H0 HU) as (A1 & A2). split; [|exact A2]. apply legal_graph_calls_eq. split; [exact A1|].
  eapply graph_destroyed_lower; [exact HW|exact HD|]. rewrite map_length. exact HL.
Qed.
Print Assumptions C143_released.

(** A choice resource over a coalescing resource (over a contiguous resource and the second of
    the lowest ones) and a debug resource; the contiguous and the debug resource share the first
    of the lowest ones, which the user calls as well. *)
Example C143_ok_ex : graph_ok 2 gph.
Proof.
  cbn [gph graph_ok length layer_ok]. repeat split; try lia; intros.
  - destruct (s <? 100); lia.
  - repeat destruct H as [<-|H]; try lia. destruct H.
Qed.
Example C143_ex : graph_runs 2 (map gnode_node gph) (rev gph0) (rev gph4) /\
  legal_graph_calls (2 + length gph) (rev gph0) /\ upstream_ok (map snd (rev gph4)) /\ length (mlive (rev gph0)) = 4%nat /\ length (mlive (rev gph4)) = 3%nat.
Proof.
  split; [exact gph_runs|]. split; [|split; [apply upstream_okb_ok; vm_compute; reflexivity|split; reflexivity]].
  cbn [rev gph0 app legal_graph_calls gph length Nat.add].
  repeat split; try lia; try (vm_compute; tauto).
  all: first [exists 2; split; [lia|reflexivity]|exists 3; split; [lia|reflexivity]|exists 4; split; [lia|reflexivity]].
Qed.
Example C143_released_ex : graph_destroyed 2 (map gnode_node gph) (rev (gph0 ++ gphd)) (rev (gph4 ++ gphd4 ++ [(0%nat, UFree 65536 4096 16)])) /\
  legal_graph_calls (2 + length gph) (rev (gph0 ++ gphd)) /\ mlive (rev (gph0 ++ gphd)) = [] /\
  upstream_ok (map snd (rev (gph4 ++ gphd4 ++ [(0%nat, UFree 65536 4096 16)]))).
Proof.
  split; [exact gph_destroyed|]. split; [|split; [vm_compute; reflexivity|apply upstream_okb_ok; vm_compute; reflexivity]].
  cbn [rev gph0 gphd app legal_graph_calls gph length Nat.add].
  repeat split; try lia; try (vm_compute; tauto).
  all: first [exists 2; split; [lia|reflexivity]|exists 3; split; [lia|reflexivity]|exists 4; split; [lia|reflexivity]].
Qed.
(** Lowest resources that keep to the contract: memory above everything given so far. *)
Definition gtop (l : list uevent) : Z := fold_right (fun e t => match e with UAlloc s _ (Some p) => Z.max (p + s) t | _ => t end) 0 l.
Definition ganswer (l : list (nat * uevent)) (u : nat) (s a : Z) : option Z :=
  let p := 16 * (gtop (map snd l) / 16 + 1) in if p + s <? 2 ^ 64 then Some p else None.
Example C143_answer_ex :
  (forall B l u s a, legal_graph_calls B l -> upstream_ok (map snd l) -> (u < B)%nat -> 0 < s <= 2 ^ 63 -> pow2 a -> a <= 16 ->
     upstream_ok (UAlloc s a (ganswer l u s a) :: map snd l)) /\ ganswer (rev gph4) 1 100 16 = Some 300048.
Proof.
  split; [|reflexivity]. intros B l u s a _ HU _ Hs (e & He & ->) Ha. unfold ganswer.
  set (t := gtop (map snd l)). destruct (Z.ltb_spec (16 * (t / 16 + 1) + s) (2 ^ 64)) as [HL|]; [|exact HU].
  assert (T : 0 <= t /\ forall b, In b (ulive (map snd l)) -> bptr b + bsize b <= t).
  { unfold t. generalize (map snd l) as q. clear. induction q as [|[s a [p|]|p s a] q (I1 & I2)]; cbn [ulive].
    - split; [reflexivity|intros b []].
    - change (gtop (UAlloc s a (Some p) :: q)) with (Z.max (p + s) (gtop q)).
      split; [lia|]. intros b [<-|Hb]; [cbn [bptr bsize]; lia|]. specialize (I2 b Hb). lia.
    - exact (conj I1 I2).
    - split; [exact I1|]. intros b Hb. apply I2. eapply remove1_in; exact Hb. }
  destruct T as (T1 & T2). pose proof (Z.div_mod t 16 ltac:(lia)) as DM. pose proof (Z.mod_pos_bound t 16 ltac:(lia)).
  cbn [upstream_ok]. split; [lia|]. split; [exact HL|]. split.
  - assert (e <= 4). { apply Z.nlt_ge. intros E. assert (2 ^ 5 <= 2 ^ e) by (apply Z.pow_le_mono_r; lia). lia. }
    apply Z.divide_mul_l. exists (2 ^ (4 - e)). rewrite <- Z.pow_add_r by lia. replace (4 - e + e) with 4 by lia. reflexivity.
  - split; [|exact HU]. intros c Hc (x & (X1 & X2) & (X3 & X4)). cbn [bptr bsize] in *. specialize (T2 c Hc). lia.
Qed.
