(** * Property theorems for C47: any number of goroutines, any schedule.

    [csteps pls (mkC w []) s]: from a world [w] without goroutines, state [s] can be
    reached by starting goroutines, letting them call Process on pipelines of [pls]
    with any events, and interleaving their steps in any way.  [count id m log]: the
    value of counter [m] of component [id].  [inside_all id ts]: how many calls of the
    component [id] are in progress in the goroutines [ts]. *)
From Verif Require Import Conc.

(** At every moment, for every component: received = sent + errors + discarded + in progress. *)
Theorem C47_conservation_any_schedule : ∀ pls w s id,
  w_log w = [] → csteps pls (mkC w []) s →
  let c m := count id m (w_log (c_world s)) in
  c MIn = c MOut + c MErrors + c MDiscarded + inside_all id (c_threads s).
Proof.
  intros pls w s id Hw Hs c. eapply csteps_balanced in Hs; [exact Hs|].
  unfold balanced_state. simpl. by rewrite Hw.
Qed.
Print Assumptions C47_conservation_any_schedule.

(** So when no goroutine is inside Process and none has panicked there, the counters balance. *)
Theorem C47_quiescent : ∀ pls w s id,
  w_log w = [] → csteps pls (mkC w []) s →
  (∀ t, t ∈ c_threads s → ∃ res, t = TIdle res) →
  let c m := count id m (w_log (c_world s)) in
  c MIn = c MOut + c MErrors + c MDiscarded.
Proof.
  intros pls w s id Hw Hs Hq c. unfold c.
  rewrite (C47_conservation_any_schedule pls w s id Hw Hs).
  assert (inside_all id (c_threads s) = 0) as ->; [|lia].
  clear -Hq. unfold inside_all. induction (c_threads s) as [|t ts IH]; [done|]. simpl.
  destruct (Hq t) as [res ->]; [by left|]. simpl. apply IH. intros t' Ht'. apply Hq. by right.
Qed.
Print Assumptions C47_quiescent.

(** No counter ever decreases, between any two moments. *)
Theorem C47_monotone : ∀ pls s s' id m, csteps pls s s' →
  count id m (w_log (c_world s)) ≤ count id m (w_log (c_world s')).
Proof.
  intros pls s s' id m H. induction H as [|a b c _ IH Hs]; [done|].
  etrans; [exact IH|]. by eapply cstep_mono.
Qed.
Print Assumptions C47_monotone.

(** [all_seen P pls s]: every result with which a Process call returns, in any
    schedule from [s], satisfies [P], given the event it was called with. *)
Definition returns (pls : list pipeline) (s : cstate) (evt : option nat)
    (res : option nat * option goerr) : Prop :=
  ∃ w ts i pe c st w', csteps pls s (mkC w ts) ∧ ts !! i = Some (TRun evt pe c st) ∧
    tstep w evt pe c st = (w', TIdle (Some res)).

(** Whatever the schedule, a Process call returns the event it got and no error, or
    no event and an error. *)
Theorem C47_one_of_event_or_error : ∀ pls w evt res,
  returns pls (mkC w []) evt res → res = (evt, None) ∨ ∃ err, res = (None, Some err).
Proof.
  intros pls w evt res (w1 & ts & i & pe & c & st & w' & Hs & Hi & Ht).
  assert (Forall thread_ok ts) as Hall.
  { assert (∀ s, csteps pls (mkC w []) s → Forall thread_ok (c_threads s)) as Hg; [|exact (Hg _ Hs)].
    clear. intros s H. remember (mkC w []) as s0. induction H as [|a b c _ IH Hs]; [subst; simpl; by apply List.Forall_nil|].
    specialize (IH Heqs0). destruct Hs as [w1 ts|w1 ts i res pl evt Hi Hpl|w1 ts i evt pe c st w' t' Hi Hs]; simpl in *.
    - apply Forall_app. split; [done|]. by constructor.
    - apply Forall_insert; done.
    - apply Forall_insert; [done|]. eapply Forall_lookup_1 in IH; [|exact Hi]. by eapply tstep_ok in Hs as [? _]. }
  eapply Forall_lookup_1 in Hall; [|exact Hi].
  eapply tstep_ok in Ht as [_ Ht]; [|exact Hall]. exact Ht.
Qed.
Print Assumptions C47_one_of_event_or_error.

(** A goroutine left alone computes what [Process] computes, in any state. *)
Theorem C47_alone_is_sequential : ∀ pls w ts i res pl evt w' r err,
  ts !! i = Some (TIdle res) → pl ∈ pls → Process pl w evt = Ok (w', r, err) →
  csteps pls (mkC w ts) (mkC w' (<[i := TIdle (Some (r, err))]> ts)).
Proof.
  intros pls w ts i res pl evt w' r err Hi Hpl HP.
  pose proof (Process_tsteps pl w evt) as H. rewrite HP in H.
  eapply csteps_trans.
  - eapply cs_more; [apply cs_refl|]. by eapply (cs_call _ _ _ _ _ pl evt).
  - pose proof (tsteps_csteps pls evt _ _ H (<[i := tstart pl evt]> ts) i) as Hc. simpl in Hc.
    rewrite list_insert_insert in Hc. apply Hc.
    apply list_lookup_insert. by eapply lookup_lt_Some.
Qed.
Print Assumptions C47_alone_is_sequential.

(** Two goroutines in turn: both inside component "a" at the same time, one step later
    each; then one has left it. *)
Definition turn (s : cstate) (i : nat) : cstate :=
  match c_threads s !! i with
  | Some (TRun evt pe c st) =>
      let '(w, t) := tstep (c_world s) evt pe c st in mkC w (<[i := t]> (c_threads s))
  | _ => s
  end.
Lemma csteps_turn pls s0 s i : csteps pls s0 s → csteps pls s0 (turn s i).
Proof.
  intros H. unfold turn. destruct s as [w ts]. simpl.
  destruct (ts !! i) as [[res|evt pe c st|st]|] eqn:E; try done.
  destruct (tstep w evt pe c st) as [w' t'] eqn:Et. eapply cs_more; [exact H|]. by eapply cs_move.
Qed.
Lemma csteps_turns pls s0 is : ∀ s, csteps pls s0 s → csteps pls s0 (fold_left turn is s).
Proof. induction is as [|i is IH]; intros s H; [done|]. simpl. by apply IH, csteps_turn. Qed.

Definition two_started : cstate :=
  mkC w_init [tstart pl_recover (Some 0); tstart pl_recover (Some 0)].
Lemma two_started_reached : csteps [pl_recover] (mkC w_init []) two_started.
Proof.
  eapply cs_more; [eapply cs_more; [eapply cs_more; [eapply cs_more; [apply cs_refl|]|]|]|].
  - apply cs_spawn.
  - apply cs_spawn.
  - eapply (cs_call _ _ _ 0 None pl_recover (Some 0)); [done|by left].
  - exact (cs_call [pl_recover] w_init [tstart pl_recover (Some 0); TIdle None] 1 None pl_recover (Some 0)
             eq_refl ltac:(by left)).
Qed.

Example C47_ex :
  (let s := fold_left turn [0; 1; 0; 1] two_started in
   csteps [pl_recover] (mkC w_init []) s ∧
   count "a" MIn (w_log (c_world s)) = 2 ∧ inside_all "a" (c_threads s) = 2) ∧
  (let s := fold_left turn (concat (repeat [0; 1] 18)) two_started in
   csteps [pl_recover] (mkC w_init []) s ∧
   (∀ t, t ∈ c_threads s → t = TIdle (Some (Some 0, None))) ∧
   count "a" MIn (w_log (c_world s)) = 2 ∧ count "a" MErrors (w_log (c_world s)) = 2 ∧
   count "b" MOut (w_log (c_world s)) = 2).
Proof.
  split; cbv zeta.
  - split; [apply csteps_turns, two_started_reached|]. split; [vm_compute; reflexivity|vm_compute; reflexivity].
  - split; [apply csteps_turns, two_started_reached|].
    split; [|split; [vm_compute; reflexivity|split; [vm_compute; reflexivity|vm_compute; reflexivity]]].
    assert (c_threads (fold_left turn (concat (repeat [0; 1] 18)) two_started) =
            [TIdle (Some (Some 0, None)); TIdle (Some (Some 0, None))]) as -> by (vm_compute; reflexivity).
    intros t Ht. apply elem_of_cons in Ht as [?|?%elem_of_list_singleton]; done.
Qed.
