(** * C66: events do not influence each other, whatever is done to them in whatever order.

    [do_calls null pls w cs] (Session.v): the program that makes the calls [cs], each on
    one event of [w]: Put, TryPut, Get, Delete, eventutil.Append, Process.  [null]: the
    address of event.NullValue, which is every null that a call puts into any event.
    [view n h op] (Isolation.v): what is seen of value [op] in heap [h] down to depth [n];
    [event_view n w i]: likewise of the fields of event [i]. *)
From Verif Require Import ReuseMem ReuseProps SessionFacts PipeSem Isolation.
From Coq Require Import Lia.

(** ** Where programs start *)
(** [events_apart w Gs] (SessionFacts.v): event [i] of [w] is the graph [Gs !! i], and no array or
    map belongs to two events. New events are apart, and so are events whose fields have
    been set otherwise, from different arrays and maps. *)
Theorem C66_start_new : ∀ w, Forall (λ e, e = newEvent) (w_events w) →
  events_apart w (replicate (length (w_events w)) (mkGraph [] None)).
Proof. exact apart_new. Qed.
Print Assumptions C66_start_new.
Theorem C66_start : ∀ w (ms : list (gomap tree)) (F : nat → list loc), length ms = length (w_events w) →
  (∀ i m, ms !! i = Some m → showing w i m (F i)) → (∀ i j l, i ≠ j → l ∈ F i → l ∉ F j) → events_apart w (map planted ms).
Proof. exact apart_showing. Qed.
Print Assumptions C66_start.

(** ** What a program does *)
(** The program does to every event what the specification [gcalls] (Session.v), which has
    every event by itself, says: the same panic, or the same answers and fields. *)
Theorem C66_history : ∀ null pls bs w Gs cs,
  hvals (w_heap w) !! null = Some mkNull → Forall2 (pipe_as (w_heap w)) bs pls → Forall (λ c, call_sorted c.2) cs → events_apart w Gs →
  match gcalls bs Gs cs with
  | Shares => False
  | Crashes => do_calls null pls w cs = Panic
  | Gives (Gs', l) => ∃ w' l', do_calls null pls w cs = Ok (w', l') ∧ events_apart w' Gs' ∧
      (∀ i G, Gs' !! i = Some G → ∃ e, w_events w' !! i = Some e ∧ (∀ m, shows G m ↔ ev_like (w_heap w') e m) ∧
         ∀ n, event_view n w' i = Some (gevent_view n G)) ∧
      Forall2 (λ a g, a.1 = g.1 ∧ reply a.2 g.2) l' l ∧
      hvals (w_heap w') !! null = Some mkNull
  end.
Proof.
  intros null pls bs w Gs cs Hn Hp Hc Ha. pose proof (calls_end null pls bs cs w Gs (conj Hn Hp) Hc Ha) as H.
  destruct (gcalls bs Gs cs) as [[Gs' l]| |]; [|done|done]. destruct H as (w' & l' & H1 & [Hn' _] & H3 & H4).
  exists w', l'. split_and!; [done|done| |done|done]. intros i G HG. destruct H3 as (_ & F & HF & _). specialize (HF _ _ HG).
  pose proof HF as (e & _ & He & _). exists e. split_and!; [done|intros m; by eapply drawn_shows|intros n; by eapply event_gview].
Qed.
Print Assumptions C66_history.

(** Two answers nobody can tell apart. *)
Definition same_answer (a b : nat * answer) : Prop :=
  a.1 = b.1 ∧ a_err a.2 = a_err b.2 ∧ (a_val a.2 = None ↔ a_val b.2 = None) ∧ ∀ n, view n (a_heap a.2) (a_val a.2) = view n (a_heap b.2) (a_val b.2).
Lemma reply_same a b g : a.1 = b.1 → reply a.2 g → reply b.2 g → same_answer a b.
Proof.
  destruct g as [G [o err]]. cbn. intros E [E1 H1] [E2 H2]. split_and!; [done|congruence| |].
  - destruct o as [x|]; cbn in *; [|by rewrite H1, H2]. destruct H1 as [H1 _], H2 as [H2 _]. by split.
  - intros n. destruct o as [x|]; cbn in *; [|subst; rewrite H1, H2; by destruct n]. destruct H1 as (_ & _ & H1), H2 as (_ & _ & H2). by rewrite H1, H2.
Qed.
Lemma replies_same l l1 gs : Forall2 (λ a g, a.1 = g.1 ∧ reply a.2 g.2) l gs → Forall2 (λ a g, a.1 = g.1 ∧ reply a.2 g.2) l1 gs →
  Forall2 same_answer l l1.
Proof.
  revert l1 gs. induction l as [|a l IH]; intros l1 gs H1 H2; inversion H1 as [|? g ? gs' [Ea Ra] Hl]; subst; inversion H2 as [|b ? l1' ? [Eb Rb] Hl1]; subst; [constructor|].
  constructor; [|by eapply IH]. eapply reply_same; [congruence|done|done].
Qed.
Lemma replies_only i l gs : Forall2 (λ (a : nat * answer) (g : nat * (graph * (option item * option goerr))), a.1 = g.1 ∧ reply a.2 g.2) l gs →
  Forall2 (λ a g, a.1 = g.1 ∧ reply a.2 g.2) (only i l) (only i gs).
Proof.
  unfold only. induction 1 as [|a g l gs [E R] _ IH]; [constructor|]. rewrite !filter_cons. destruct (decide (a.1 = i)) as [Hi|Hi].
  - rewrite decide_True by congruence. by constructor.
  - by rewrite decide_False by congruence.
Qed.
Lemma sorted_only i (cs : list (nat * call)) : Forall (λ c, call_sorted c.2) cs → Forall (λ c, call_sorted c.2) (only i cs).
Proof. rewrite !Forall_forall. intros H c Hx. apply elem_of_list_filter in Hx as [_ Hx]. by apply H. Qed.
Lemma apart_lookup w Gs i : events_apart w Gs → is_Some (w_events w !! i) ↔ is_Some (Gs !! i).
Proof. intros (E & _). rewrite !lookup_lt_is_Some. lia. Qed.
Lemma apart_view w w1 Gs Hs i n : events_apart w Gs → events_apart w1 Hs → Gs !! i = Hs !! i → event_view n w i = event_view n w1 i.
Proof.
  intros H1 H2 E. destruct (Gs !! i) as [G|] eqn:EG.
  - destruct H1 as (_ & F1 & HF1 & _), H2 as (_ & F2 & HF2 & _). rewrite (event_gview _ _ _ _ n (HF1 _ _ EG)).
    symmetry in E. by rewrite (event_gview _ _ _ _ n (HF2 _ _ E)).
  - destruct (w_events w !! i) eqn:E1.
    + assert (is_Some (Gs !! i)) as [? ?] by (by eapply apart_lookup; [|rewrite E1]). congruence.
    + destruct (w_events w1 !! i) eqn:E2; [|unfold event_view; by rewrite E1, E2].
      assert (is_Some (Hs !! i)) as [? ?] by (by eapply apart_lookup; [|rewrite E2]). congruence.
Qed.

(** ** Each event by itself *)
(** In a program that does not panic an event has the same answers and the same fields as
    in the program that makes only the calls on it. *)
Theorem C66_alone : ∀ null pls bs w cs w' l i,
  hvals (w_heap w) !! null = Some mkNull → Forall2 (pipe_as (w_heap w)) bs pls → Forall (λ c, call_sorted c.2) cs → (∃ Gs, events_apart w Gs) →
  do_calls null pls w cs = Ok (w', l) →
  ∃ w1 l1, do_calls null pls w (filter (λ c, c.1 = i) cs) = Ok (w1, l1) ∧
    Forall2 same_answer (filter (λ a, a.1 = i) l) l1 ∧ ∀ n, event_view n w' i = event_view n w1 i.
Proof.
  intros null pls bs w cs w' l i Hn Hp Hc [Gs Ha] Hr. pose proof (calls_end null pls bs cs w Gs (conj Hn Hp) Hc Ha) as H.
  destruct (gcalls bs Gs cs) as [[Gs' gl]| |] eqn:Eg; [|congruence|done]. destruct H as (w2 & l2 & E2 & _ & Ha2 & Hl2).
  rewrite Hr in E2. injection E2 as <- <-. destruct (gcalls_only bs i cs Gs Gs Gs' gl Eg eq_refl) as (Hs' & Eo & Ei).
  pose proof (calls_end null pls bs (only i cs) w Gs (conj Hn Hp) (sorted_only i cs Hc) Ha) as H. rewrite Eo in H.
  destruct H as (w1 & l1 & E1 & _ & Ha1 & Hl1). exists w1, l1. split_and!; [done| |].
  - eapply replies_same; [by apply replies_only|done].
  - intros n. by eapply apart_view.
Qed.
Print Assumptions C66_alone.

(** If no program for one event panics, all of them together do not. *)
Theorem C66_together : ∀ null pls bs w cs,
  hvals (w_heap w) !! null = Some mkNull → Forall2 (pipe_as (w_heap w)) bs pls → Forall (λ c, call_sorted c.2) cs → (∃ Gs, events_apart w Gs) →
  (∀ c, c ∈ cs → c.1 < length (w_events w)) →
  (∀ i, i < length (w_events w) → do_calls null pls w (filter (λ c, c.1 = i) cs) ≠ Panic) →
  do_calls null pls w cs ≠ Panic.
Proof.
  intros null pls bs w cs Hn Hp Hc [Gs Ha] Hin H. pose proof Ha as (El & _).
  destruct (gcalls_all bs cs Gs) as (Gs' & l & Eg).
  - by rewrite El.
  - intros i Hi. rewrite El in Hi. specialize (H i Hi). pose proof (calls_end null pls bs (only i cs) w Gs (conj Hn Hp) (sorted_only i cs Hc) Ha) as Hx.
    destruct (gcalls bs Gs (only i cs)) as [[Hs l]| |]; [by eexists _, _|done|done].
  - pose proof (calls_end null pls bs cs w Gs (conj Hn Hp) Hc Ha) as Hx. rewrite Eg in Hx. destruct Hx as (w' & l' & -> & _). done.
Qed.
Print Assumptions C66_together.

(** The order of calls on different events does not matter. *)
Theorem C66_order : ∀ null pls bs w cs cs' w' l,
  hvals (w_heap w) !! null = Some mkNull → Forall2 (pipe_as (w_heap w)) bs pls → Forall (λ c, call_sorted c.2) cs → (∃ Gs, events_apart w Gs) →
  (∀ i, filter (λ c, c.1 = i) cs = filter (λ c, c.1 = i) cs') →
  do_calls null pls w cs = Ok (w', l) →
  ∃ w1 l1, do_calls null pls w cs' = Ok (w1, l1) ∧
    ∀ i, Forall2 same_answer (filter (λ a, a.1 = i) l) (filter (λ a, a.1 = i) l1) ∧ ∀ n, event_view n w' i = event_view n w1 i.
Proof.
  intros null pls bs w cs cs' w' l Hn Hp Hc [Gs Ha] Hsame Hr.
  assert (∀ c, c ∈ cs' ↔ c ∈ cs) as Hin.
  { intros c. pose proof (Hsame c.1) as E. split; intros Hx.
    - assert (c ∈ filter (λ c0, c0.1 = c.1) cs') as Hy by (by apply elem_of_list_filter). rewrite <- E in Hy. by apply elem_of_list_filter in Hy as [_ Hy].
    - assert (c ∈ filter (λ c0, c0.1 = c.1) cs) as Hy by (by apply elem_of_list_filter). rewrite E in Hy. by apply elem_of_list_filter in Hy as [_ Hy]. }
  assert (Forall (λ c, call_sorted c.2) cs') as Hc'. { rewrite Forall_forall in *. intros c Hx. by apply Hc, Hin. }
  pose proof (calls_end null pls bs cs w Gs (conj Hn Hp) Hc Ha) as H.
  destruct (gcalls bs Gs cs) as [[Gs' gl]| |] eqn:Eg; [|congruence|done]. destruct H as (w2 & l2 & E2 & _ & Ha2 & Hl2).
  rewrite Hr in E2. injection E2 as <- <-.
  assert (∀ i, ∃ Hs, gcalls bs Gs (only i cs') = Gives (Hs, only i gl) ∧ Gs' !! i = Hs !! i) as Hall.
  { intros i. destruct (gcalls_only bs i cs Gs Gs Gs' gl Eg eq_refl) as (Hs' & Eo & Ei). exists Hs'. split; [|done]. unfold only in Eo at 1. by rewrite (Hsame i) in Eo. }
  destruct (gcalls_all bs cs' Gs) as (Gs1 & gl1 & Eg1).
  - intros c Hx. apply Hin in Hx. eapply gcalls_in; [exact Eg|done].
  - intros i _. destruct (Hall i) as (Hs & E & _). by eexists _, _.
  - pose proof (calls_end null pls bs cs' w Gs (conj Hn Hp) Hc' Ha) as Hx. rewrite Eg1 in Hx. destruct Hx as (w1 & l1 & E1 & _ & Ha1 & Hl1).
    exists w1, l1. split; [done|]. intros i. destruct (gcalls_only bs i cs' Gs Gs Gs1 gl1 Eg1 eq_refl) as (Hs1 & Eo1 & Ei1).
    destruct (Hall i) as (Hs & E & Ei). rewrite Eo1 in E. injection E as -> E. split.
    + eapply replies_same; [by apply (replies_only i)|]. unfold only in E. pose proof (replies_only i _ _ Hl1) as Hy. unfold only in Hy |- *. by rewrite <- E.
    + intros n. eapply apart_view; [done|done|congruence].
Qed.
Print Assumptions C66_order.

(** ** The shared null *)
(** No program changes it, whatever the events, and whether or not they share arrays and
    objects. ([builtin C]: one of the built-in processors.) *)
Theorem C66_null_kept : ∀ null pls C w cs w' l,
  Forall (λ pl, Forall (λ q, builtin C (p_prog q)) (pl_all pl)) pls →
  hvals (w_heap w) !! null = Some mkNull → do_calls null pls w cs = Ok (w', l) → hvals (w_heap w') !! null = Some mkNull.
Proof.
  intros null pls C w cs w' l Hb Hn H. eapply do_calls_keeps; [|exact H|exact Hn|done].
  eapply Forall_impl; [exact Hb|]. intros pl Hpl. eapply Forall_impl; [exact Hpl|]. intros q Hq. exact (builtin_keeps C _ Hq).
Qed.
Print Assumptions C66_null_kept.

(** But decoding JSON into it does: then every null ever put into an event is what the text
    says.  [fill t t0]: [t0] with [t] for every null. *)
Theorem C66_decode_every_null : ∀ null h0 t0 h op s text t,
  null < length (hvals h0) → tsorted t0 → build null h0 t0 = (h, op) →
  (* later on *)
  (∀ p v, hvals h !! p = Some v → hvals (vs_heap s) !! p = Some v) → (∀ r gm, hmaps h !! r = Some gm → hmaps (vs_heap s) !! r = Some gm) →
  hvals (vs_heap s) !! null = Some mkNull → says text t →
  ∃ s' fp, UnmarshalValue text s null = (s', false) ∧ rep (vs_heap s') op (fill t t0) fp.
Proof.
  intros null h0 t0 h op s text t Hlt Hts Hb Hv Hm Hn Hs.
  destruct (C65_new s null mkNull text t Hn eq_refl eq_refl Hs) as (s' & fp & Hu & Hr & _ & _ & [U1 U2]).
  destruct (build_fill null (vs_heap s') t fp Hr t0 h0 h op Hts Hlt Hb) as [fp' Hr'].
  - split.
    + intros p v Hne Hp. apply U1; [congruence|by apply Hv].
    + intros r gm Hg. apply U2; [done|by apply Hm].
  - by exists s', fp'.
Qed.
Print Assumptions C66_decode_every_null.

(** ** An example *)
(** Two events; event.NullValue at 0; a pipeline that copies a to b.c and appends x to d. *)
Definition se_w : world := mkWorld (mkHeap [mkNull] []) [newEvent; newEvent] [] [].
Definition se_b : bpipe := mkBPipe
  [BProc "p.0" false false [] (BCopy "a" "b.c"); BProc "p.1" false false [] (BAppend "d" "x")] [].
Definition se_pl : pipeline := mkPipeline "p"
  [PProc "p.0" "" false false [] (set_process (mkSet "a" "b.c" 0)); PProc "p.1" "" false false [] (append_process (mkAppend "d" "x"))] [].
Definition se_cs : list (nat * call) :=
  [(0, DoPut "a" (TArr [TNull])); (1, DoPut "a" TNull); (0, DoProcess 0); (1, DoAppend "a" (TArr [TNull; TBool true]));
   (0, DoAppend "a" (TStr "y")); (1, DoProcess 0); (0, DoDelete "a"); (1, DoTryPut "a.b" TNull); (1, DoGet "a")].
Example C66_ex_ready : hvals (w_heap se_w) !! 0 = Some mkNull ∧ Forall2 (pipe_as (w_heap se_w)) [se_b] [se_pl] ∧
  Forall (λ c, call_sorted c.2) se_cs ∧ (∃ Gs, events_apart se_w Gs) ∧
  Forall (λ pl, Forall (λ q, builtin [0] (p_prog q)) (pl_all pl)) [se_pl].
Proof.
  assert (holds (w_heap se_w) 0 TNull) as Hh by (by exists mkNull).
  split_and!.
  - done.
  - apply Forall2_cons. split; [|apply Forall2_nil_2]. split; [|constructor]. unfold se_b, se_pl. cbn [bp_processors pl_processors].
    repeat (apply Forall2_cons; split); [| |apply Forall2_nil_2]; (constructor; [|apply Forall2_nil_2]); [by eapply ra_copy|constructor].
  - unfold se_cs. repeat (apply List.Forall_cons; [cbn; repeat (constructor || split); try done|]). apply List.Forall_nil.
  - eexists. apply C66_start_new. by repeat constructor.
  - apply List.Forall_cons; [|apply List.Forall_nil]. unfold pl_all, se_pl. cbn. apply List.Forall_cons; [|apply List.Forall_cons; [|apply List.Forall_nil]]; cbn.
    + apply bi_set. by left.
    + apply bi_append.
Qed.
Example C66_ex_runs : ∃ w l, do_calls 0 [se_pl] se_w se_cs = Ok (w, l) ∧
  event_view 5 w 0 = Some [("b", TObj [("c", TArr [TNull; TStr "y"])]); ("d", TArr [TStr "x"])] ∧
  event_view 5 w 1 = Some [("a", TArr [TNull; TNull; TBool true]); ("b", TObj [("c", TArr [TNull; TNull; TBool true])]); ("d", TArr [TStr "x"])].
Proof. eexists _, _. split; [vm_compute; reflexivity|]. split; vm_compute; reflexivity. Qed.

(** Decoding into a value of one event changes another event. *)
Theorem C66_decode_refuted : ∃ w w1 l a s err,
  do_calls 0 [] w [(0, DoPut "a" TNull); (1, DoPut "b" TNull); (0, DoGet "a")] = Ok (w1, l) ∧ w_events w = [newEvent; newEvent] ∧
  event_view 2 w1 1 = Some [("b", TNull)] ∧
  (* the value that the Get returned *)
  l !! 2 = Some (0, a) ∧ ∃ p, a_val a = Some p ∧ UnmarshalValue (txt "true") (mkVS (w_heap w1) (λ _, []) []) p = (s, err) ∧
  event_view 2 (set_heap w1 (vs_heap s)) 1 = Some [("b", TBool true)].
Proof.
  exists se_w. eexists _, _, _, _, _. split; [vm_compute; reflexivity|]. split; [done|]. split; [vm_compute; reflexivity|]. split; [reflexivity|].
  exists 0. split; [reflexivity|]. split; [vm_compute; reflexivity|]. vm_compute. reflexivity.
Qed.
Print Assumptions C66_decode_refuted.
Example C66_ex_decode : tsorted (TObj [("a", TArr [TNull]); ("b", TNull)]) ∧ says (txt "[true]") (TArr [TBool true]) ∧
  fill (TArr [TBool true]) (TObj [("a", TArr [TNull]); ("b", TNull)]) = TObj [("a", TArr [TArr [TBool true]]); ("b", TArr [TBool true])].
Proof.
  split_and!; [by repeat constructor| |reflexivity]. exists (JArr [JBool true]).
  assert (document (txt "[true]") (JArr [JBool true])) as Hd by (apply parse_iff; reflexivity).
  split; [done|]. split; [by apply within_iff|]. right. split; [done|]. apply means_iff; [by eapply document_valid|reflexivity].
Qed.
