(** * Property theorems for C28: events are processed independently.

    [feeds pl w ms = Ok w']: events holding the fields [ms] are processed one after
    the other.  [feed pl w m = Ok (w', i, r, err)]: a new event [i] holding [m] is
    processed, Process returns [r] and [err].  [event_view n w i]: the fields of
    event [i] down to depth [n]. *)
From Verif Require Import Isolation.

(** Full statement wanted: for every pipeline.  Proved: for pipelines of built-in
    processors whose [set] values (the cells [C]) are neither arrays nor objects. *)
Theorem C28_isolation_partial : ∀ C pl w0 ms1 ms2 w1 w2 m,
  Forall (λ q, builtin C (p_prog q)) (pl_all pl) →
  (∀ p, p ∈ C → ∃ v, hvals (w_heap w0) !! p = Some v ∧ plain v) →
  feeds pl w0 ms1 = Ok w1 → feeds pl w0 ms2 = Ok w2 →
  match feed pl w1 m, feed pl w2 m with
  | Panic, Panic => True
  | Ok (w1', i1, r1, err1), Ok (w2', i2, r2, err2) =>
      err1 = err2 ∧ (r1 = None ↔ r2 = None) ∧
      (∀ n, event_view n w1' i1 = event_view n w2' i2) ∧
      ∃ lg, w_log w1' = w_log w1 ++ lg ∧ w_log w2' = w_log w2 ++ lg
  | _, _ => False
  end.
Proof.
  intros C pl w0 ms1 ms2 w1 w2 m Hb Hc H1 H2. apply (feed_same C).
  - eapply Forall_impl; [exact Hb|]. intros q Hq. by apply builtin_stateless.
  - eapply (feeds_same_cells C pl w0 ms1 ms2); [| |done|done].
    + eapply Forall_impl; [exact Hb|]. intros q Hq. exact (builtin_keeps _ _ Hq).
    + intros p Hp. destruct (Hc p Hp) as (v & ? & ?). exists v; auto.
Qed.
Print Assumptions C28_isolation_partial.

(** The same for any processors that keep no state between calls, do not depend on
    the environment, and overwrite no plain value they did not make. *)
Theorem C28_stateless_isolation_partial : ∀ C pl w0 ms1 ms2 w1 w2 m,
  Forall (λ q, stateless C (p_prog q) ∧ keeps_plain (p_prog q)) (pl_all pl) →
  (∀ p, p ∈ C → ∃ v, hvals (w_heap w0) !! p = Some v ∧ plain v) →
  feeds pl w0 ms1 = Ok w1 → feeds pl w0 ms2 = Ok w2 →
  match feed pl w1 m, feed pl w2 m with
  | Panic, Panic => True
  | Ok (w1', i1, r1, err1), Ok (w2', i2, r2, err2) =>
      err1 = err2 ∧ (r1 = None ↔ r2 = None) ∧
      (∀ n, event_view n w1' i1 = event_view n w2' i2) ∧
      ∃ lg, w_log w1' = w_log w1 ++ lg ∧ w_log w2' = w_log w2 ++ lg
  | _, _ => False
  end.
Proof.
  intros C pl w0 ms1 ms2 w1 w2 m Hb Hc H1 H2. apply (feed_same C).
  - eapply Forall_impl; [exact Hb|]. by intros q [? _].
  - eapply (feeds_same_cells C pl w0 ms1 ms2); [| |done|done].
    + eapply Forall_impl; [exact Hb|]. by intros q [_ ?].
    + intros p Hp. destruct (Hc p Hp) as (v & ? & ?). exists v; auto.
Qed.
Print Assumptions C28_stateless_isolation_partial.

(** A pipeline: set "tags.kind" to "Log", lowercase it, append to "list". *)
Definition iso_pl : pipeline :=
  mkPipeline "p"
    [simple "p.0" (set_process (mkSet "" "tags.kind" 0));
     simple "p.1" (lowercase_process (λ _, "log") (mkCase "tags.kind" ""));
     PProc "p.2" "" false false [simple "p.2.0" (append_process (mkAppend "err" "bad"))]
       (append_process (mkAppend "list" "x"))] [].
Definition iso_w0 : world := mkWorld (mkHeap [mkString "Log"] []) [] [] [].

Example C28_ex :
  Forall (λ q, builtin [0] (p_prog q)) (pl_all iso_pl) ∧
  (∀ p, p ∈ [0] → ∃ v, hvals (w_heap iso_w0) !! p = Some v ∧ plain v) ∧
  (∃ w1, feeds iso_pl iso_w0 [[("list", TArr [TInt 1])]; [("list", TInt 2)]] = Ok w1 ∧
    ∃ w2 i r, feed iso_pl w1 [("a", TBool true)] = Ok (w2, i, r, None) ∧
      event_view 4 w2 i = Some [("a", TBool true); ("list", TArr [TStr "x"]); ("tags", TObj [("kind", TStr "log")])]).
Proof.
  split_and!.
  - change (pl_all iso_pl) with
      [simple "p.0" (set_process (mkSet "" "tags.kind" 0));
       simple "p.1" (lowercase_process (λ _, "log") (mkCase "tags.kind" ""));
       PProc "p.2" "" false false [simple "p.2.0" (append_process (mkAppend "err" "bad"))]
         (append_process (mkAppend "list" "x"));
       simple "p.2.0" (append_process (mkAppend "err" "bad"))].
    repeat (apply Forall_cons; split); [| | | |constructor].
    + apply bi_set. left.
    + apply bi_lowercase.
    + apply bi_append.
    + apply bi_append.
  - intros p ->%elem_of_list_singleton. exists (mkString "Log"). by split_and!.
  - eexists. split; [vm_compute; reflexivity|]. eexists _, _, _. split; [vm_compute; reflexivity|].
    vm_compute; reflexivity.
Qed.

(** With an array as [set] value the full statement is false: the second event
    also holds what was appended to the first. *)
Theorem C28_set_array_refuted : ∃ pl w0 w1 w2 i1 i2 r1 r2,
  pl_all pl = [simple "s" (set_process (mkSet "" "k" 0)); simple "a" (append_process (mkAppend "k" "x"))] ∧
  hvals (w_heap w0) !! 0 = Some (mkArray []) ∧ w_events w0 = [] ∧
  feed pl w0 [] = Ok (w1, i1, r1, None) ∧ feed pl w1 [] = Ok (w2, i2, r2, None) ∧
  event_view 2 w1 i1 = Some [("k", TArr [TStr "x"])] ∧
  event_view 2 w2 i2 = Some [("k", TArr [TStr "x"; TStr "x"])] ∧
  event_view 2 w2 i1 = Some [("k", TArr [TStr "x"; TStr "x"])].
Proof.
  exists (mkPipeline "p" [simple "s" (set_process (mkSet "" "k" 0)); simple "a" (append_process (mkAppend "k" "x"))] []).
  exists (mkWorld (mkHeap [mkArray []] []) [] [] []).
  eexists _, _, _, _, _, _. do 3 (split; [reflexivity|]).
  split; [vm_compute; reflexivity|]. split; [vm_compute; reflexivity|].
  split_and!; vm_compute; reflexivity.
Qed.
Print Assumptions C28_set_array_refuted.
