(** * Property theorems for panicking processors: C63.
    [Process_fate] is [Process] with the world left at a panic: a caller may recover
    and go on with it. *)
From Verif Require Import Unwind.

(** It is the same function. *)
Theorem C63_same : ∀ pl w evt,
  Process pl w evt = match Process_fate pl w evt with
                     | Done w' _ (r, err) => Ok (w', r, err)
                     | Unwound _ => Panic
                     end.
Proof. apply Process_fate_forget. Qed.
Print Assumptions C63_same.

(** A call panics only in a processor it has started; nothing else in it panics. *)
Theorem C63_only_processors_panic : ∀ pl w evt,
  (∀ p w1 pe1, p ∈ pl_all pl → pe_data pe1 = evt → run_prog (p_prog p) w1 pe1 ≠ Panic) →
  Process pl w evt ≠ Panic.
Proof.
  intros pl w evt Hok H. rewrite Process_fate_forget in H.
  destruct (Process_fate pl w evt) as [w' pe' [r err]|w'] eqn:E; [done|].
  destruct (Process_unwound_data pl w evt w' E) as (p & w1 & pe1 & Hp & Hd & Hr).
  apply (Hok p (inc w1 (p_id p) MIn) pe1 Hp Hd). by rewrite <-run_fate_forget, Hr.
Qed.
Print Assumptions C63_only_processors_panic.

(** Nothing recovers: not ignore_failure, not ignore_missing, not on_failure. *)
Theorem C63_nothing_recovers : ∀ id cond ignf ignm onf c w pe,
  run_prog c (inc w id MIn) pe = Panic → pp_process (PProc id cond ignf ignm onf c) w pe = Panic.
Proof. intros id cond ignf ignm onf c w pe H. cbn [pp_process]. by rewrite H. Qed.
Print Assumptions C63_nothing_recovers.

Theorem C63_call_panics : ∀ pl before p after w evt w1 pe1,
  pl_processors pl = before ++ p :: after →
  chain before w (mkPEvent evt false false) w1 pe1 →
  run_prog (p_prog p) (inc w1 (p_id p) MIn) pe1 = Panic →
  Process pl w evt = Panic.
Proof.
  intros pl before p after w evt w1 pe1 Hl Hc Hr. unfold Process, pl_process. rewrite Hl.
  assert (pp_process p w1 pe1 = Panic) as Hp by (destruct p; by apply C63_nothing_recovers).
  assert (∀ w pe, chain before w pe w1 pe1 → ∀ err, run_list pp_process (before ++ p :: after) w pe err = Panic) as H.
  { clear -Hp. induction before as [|q before IH]; intros w pe Hc err; cbn [app run_list chain] in *.
    - destruct Hc as [-> ->]. by rewrite Hp.
    - destruct Hc as (w2 & pe2 & -> & Hc). by apply IH. }
  by rewrite (H _ _ Hc).
Qed.
Print Assumptions C63_call_panics.

(** The counters a panic leaves: the processors on the way from the top to the one that
    panicked have each counted one event in and nothing else; all others balance. *)
Theorem C63_counters_after_panic : ∀ pl w evt w',
  Process_fate pl w evt = Unwound w' →
  ∃ path lg, (nested (pl_processors pl) path ∨ nested (pl_onf pl) path) ∧
    (∃ p w1 pe1, last path = Some p ∧ pe_data pe1 = evt ∧ run_fate (p_prog p) (inc w1 (p_id p) MIn) pe1 = Unwound w') ∧
    w_log w' = w_log w ++ lg ∧
    ∀ id, count id MIn lg =
      count id MOut lg + count id MErrors lg + count id MDiscarded lg + length (filter (λ p, p_id p = id) path).
Proof. exact Process_unwound. Qed.
Print Assumptions C63_counters_after_panic.

(** Over any history of calls whose panics were recovered, a component's counters are
    apart by at most the number of panics. *)
Theorem C63_conservation_with_panics : ∀ pls w0 w n id,
  (∀ pl, pl ∈ pls → NoDup (map p_id (pl_all pl))) → w_log w0 = [] → recovered pls w0 n w →
  count id MOut (w_log w) + count id MErrors (w_log w) + count id MDiscarded (w_log w) ≤ count id MIn (w_log w) ∧
  count id MIn (w_log w) ≤ count id MOut (w_log w) + count id MErrors (w_log w) + count id MDiscarded (w_log w) + n.
Proof.
  intros pls w0 w n id Hnd H0 H. destruct (recovered_missing pls w0 n w id Hnd H0 H) as (k & Hk & Hm).
  unfold missing_by in Hm. lia.
Qed.
Print Assumptions C63_conservation_with_panics.

(** So the balance of C18 does not survive a recovered panic; here in a handler of a
    processor that has ignore_failure and ignore_missing. *)
Definition pl_panics : pipeline :=
  mkPipeline "p" [simple "a" ok_prog; PProc "b" "" true true [simple "c" ok_prog; simple "d" PPanic] fail_prog]
    [simple "g" ok_prog].
Theorem C63_balance_refuted : ∃ w,
  NoDup (map p_id (pl_all pl_panics)) ∧ recovered [pl_panics] w_init 2 w ∧
  count "a" MIn (w_log w) = 2 ∧ count "a" MOut (w_log w) = 2 ∧
  count "b" MIn (w_log w) = 2 ∧ count "b" MOut (w_log w) + count "b" MErrors (w_log w) + count "b" MDiscarded (w_log w) = 0 ∧
  count "d" MIn (w_log w) = 2 ∧ count "d" MErrors (w_log w) = 0 ∧ count "g" MIn (w_log w) = 0.
Proof.
  eexists. split; [apply (bool_decide_eq_true_1 _); vm_compute; reflexivity|]. split.
  - eapply (rec_panic _ _ _ _ _ (Some 0)); [eapply (rec_panic _ _ _ _ _ (Some 0)); [apply rec_nil|by apply elem_of_list_singleton|]|by apply elem_of_list_singleton|];
      vm_compute; reflexivity.
  - split_and!; reflexivity.
Qed.
Print Assumptions C63_balance_refuted.

(** What the processor had done to the event before it panicked stays. *)
Theorem C63_no_rollback_refuted : ∃ pl w w' p,
  Process_fate pl w (Some 0) = Unwound w' ∧ w_heap w = emptyHeap ∧
  w_events w = [newEvent] ∧ w_events w' = [mkEvent (Some 0)] ∧ hmaps (w_heap w') = [ [("k", Some p)] ].
Proof.
  exists (mkPipeline "p" [simple "a" (PNew (mkString "v") (λ p, PPut "k" (Some p) (λ _ _, PPanic)))] []), w_init.
  eexists _, 0. split; [vm_compute; reflexivity|]. split_and!; reflexivity.
Qed.
Print Assumptions C63_no_rollback_refuted.

(** A Put or TryPut that panics has changed nothing: no value, no object, not the event.
    [put_f] is put with the heap and event it had at the end or at the panic. *)
Theorem C63_put_panics_before_writing : ∀ h e key val ow,
  (if (ow : bool) then Put h e key val else TryPut h e key val) =
    match put_f h e (keyToPath key) val ow with
    | (h', e', Some (old, err)) => Ok (mkPut h' e' old err)
    | (_, _, None) => Panic
    end ∧
  ∀ h' e', put_f h e (keyToPath key) val ow = (h', e', None) →
    e' = e ∧ (∀ p v, hvals h !! p = Some v → hvals h' !! p = Some v) ∧
    (∀ r m, hmaps h !! r = Some m → hmaps h' !! r = Some m).
Proof.
  intros h e key val ow. split.
  - rewrite <-put_f_same. by destruct ow.
  - intros h' e' H. destruct (put_f_panic _ _ _ _ _ _ _ H) as [[H1 H2] ->]. done.
Qed.
Print Assumptions C63_put_panics_before_writing.

(** It does happen: a nil value below "a", stored through the map the caller kept. *)
Example put_f_panics :
  let h := mkHeap [] [ [("a", None)] ] in
  put_f h (mkEvent (Some 0)) ["a"; "b"] (Some 0) true = (h, mkEvent (Some 0), None).
Proof. reflexivity. Qed.
