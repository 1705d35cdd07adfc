(** * Property theorems for C54: goroutines that process their own events through
    shared pipelines do not influence each other.

    [pool pls w0 s jobs results] (Pool.v): state [s] is reached from [w0] by any number
    of goroutines, in any interleaving, each making new events and passing them to
    Process of the pipelines [pls]; [(k, pl, m) ∈ jobs]: event [k], made with fields [m],
    was passed to [pl]; [(k, res) ∈ results]: that call returned [res].
    [feed pl w0 m = Ok (w', i, r, err)] (Isolation.v): in [w0], with nothing else going
    on, a new event [i] holding [m] is processed by [pl], which returns [r] and [err].
    [event_view n w k]: the fields of event [k] down to depth [n].  [builtin C c]: [c] is
    a built-in processor whose [set] value, if any, is one of the cells [C]. *)
From Verif Require Import Pool.

Local Lemma builtins_ok C (pls : list pipeline) :
  (∀ pl, pl ∈ pls → Forall (λ q, builtin C (p_prog q)) (pl_all pl)) →
  ∀ pl, pl ∈ pls → Forall (λ q, stateless C (p_prog q) ∧ gentle (p_prog q)) (pl_all pl).
Proof.
  intros H pl Hpl. eapply Forall_impl; [exact (H pl Hpl)|]. intros q Hq.
  split; [by apply builtin_stateless|exact (builtin_gentle C _ Hq)].
Qed.

(** Whatever the schedule, a call returns what it returns when the event is processed
    alone, and from then on, whatever the others do, the event holds what it holds when
    processed alone. *)
Theorem C54_as_if_alone : ∀ C pls w0 s jobs results k pl m res,
  (∀ pl, pl ∈ pls → Forall (λ q, builtin C (p_prog q)) (pl_all pl)) →
  (∀ p, p ∈ C → ∃ v, hvals (w_heap w0) !! p = Some v ∧ plain v) →
  pool pls w0 s jobs results → (k, pl, m) ∈ jobs → (k, res) ∈ results →
  ∃ w' i r err, feed pl w0 m = Ok (w', i, r, err) ∧
    res = (match r with Some _ => Some k | None => None end, err) ∧
    ∀ n, event_view n (c_world s) k = event_view n w' i.
Proof. intros C pls w0 s jobs results k pl m res Hb Hc. exact (pool_results C pls w0 (builtins_ok C pls Hb) Hc s jobs results k pl m res). Qed.
Print Assumptions C54_as_if_alone.

(** No goroutine panics because of the others. *)
Theorem C54_no_new_panics : ∀ C pls w0 s jobs results,
  (∀ pl, pl ∈ pls → Forall (λ q, builtin C (p_prog q)) (pl_all pl)) →
  (∀ p, p ∈ C → ∃ v, hvals (w_heap w0) !! p = Some v ∧ plain v) →
  pool pls w0 s jobs results →
  (∀ k pl m, (k, pl, m) ∈ jobs → feed pl w0 m ≠ Panic) →
  ∀ t st, t ∈ c_threads s → t ≠ TPanic st.
Proof.
  intros C pls w0 s jobs results Hb Hc Hp Hf t st [i Hi]%elem_of_list_lookup_1 ->.
  destruct (pool_panic C pls w0 (builtins_ok C pls Hb) Hc s jobs results i st Hp Hi) as (k & pl & m & Hj & HP).
  by eapply Hf.
Qed.
Print Assumptions C54_no_new_panics.

(** When all are done, every event has its result and every counter has grown by the
    sum of what it grows by for each event alone ([lgs]: the increments of each). *)
Theorem C54_counters_add_up : ∀ C pls w0 s jobs results,
  (∀ pl, pl ∈ pls → Forall (λ q, builtin C (p_prog q)) (pl_all pl)) →
  (∀ p, p ∈ C → ∃ v, hvals (w_heap w0) !! p = Some v ∧ plain v) →
  pool pls w0 s jobs results → (∀ t, t ∈ c_threads s → ∃ res, t = TIdle res) →
  (∀ k pl m, (k, pl, m) ∈ jobs → ∃ res, (k, res) ∈ results) ∧
  ∃ lgs, Forall2 (λ j lg, ∃ w' i r err, feed j.1.2 w0 j.2 = Ok (w', i, r, err) ∧ w_log w' = w_log w0 ++ lg) jobs lgs ∧
    ∀ id mt, count id mt (w_log (c_world s)) = count id mt (w_log w0) + sum_list (map (count id mt) lgs).
Proof.
  intros C pls w0 s jobs results Hb Hc Hp Hq.
  destruct (pool_quiet C pls w0 (builtins_ok C pls Hb) Hc s jobs results Hp Hq) as (H1 & lgs & H2 & H3).
  split; [done|]. exists lgs. split; [done|]. intros id mt. unfold count.
  rewrite H3, filter_app, app_length. f_equal. clear. induction lgs as [|l lgs IH]; [done|].
  cbn [concat map sum_list]. rewrite filter_app, app_length, IH. done.
Qed.
Print Assumptions C54_counters_add_up.

(** Nothing that existed before is changed: not the configured values, not other events. *)
Theorem C54_rest_untouched : ∀ C pls w0 s jobs results,
  (∀ pl, pl ∈ pls → Forall (λ q, builtin C (p_prog q)) (pl_all pl)) →
  (∀ p, p ∈ C → ∃ v, hvals (w_heap w0) !! p = Some v ∧ plain v) →
  pool pls w0 s jobs results →
  (∀ p v, hvals (w_heap w0) !! p = Some v → hvals (w_heap (c_world s)) !! p = Some v) ∧
  (∀ r m, hmaps (w_heap w0) !! r = Some m → hmaps (w_heap (c_world s)) !! r = Some m) ∧
  (∀ j e, w_events w0 !! j = Some e → w_events (c_world s) !! j = Some e).
Proof. intros C pls w0 s jobs results Hb Hc. exact (pool_memory C pls w0 (builtins_ok C pls Hb) Hc s jobs results). Qed.
Print Assumptions C54_rest_untouched.

(** Two events never share a map or value, finished or not, except configured values. *)
Theorem C54_no_shared_memory : ∀ C pls w0 s jobs results j1 j2 x,
  (∀ pl, pl ∈ pls → Forall (λ q, builtin C (p_prog q)) (pl_all pl)) →
  (∀ p, p ∈ C → ∃ v, hvals (w_heap w0) !! p = Some v ∧ plain v) →
  pool pls w0 s jobs results → j1 ∈ jobs → j2 ∈ jobs → j1 ≠ j2 →
  reaches (c_world s) j1.1.1 x → reaches (c_world s) j2.1.1 x → ∃ p, x = RVal p ∧ p ∈ C.
Proof. intros C pls w0 s jobs results j1 j2 x Hb Hc. exact (pool_separate C pls w0 (builtins_ok C pls Hb) Hc s jobs results j1 j2 x). Qed.
Print Assumptions C54_no_shared_memory.

(** The same as the first for any processors without state that never, not even for a
    moment, overwrite a plain value. *)
Theorem C54_any_stateless : ∀ C pls w0 s jobs results k pl m res,
  (∀ pl, pl ∈ pls → Forall (λ q, stateless C (p_prog q) ∧ gentle (p_prog q)) (pl_all pl)) →
  (∀ p, p ∈ C → ∃ v, hvals (w_heap w0) !! p = Some v ∧ plain v) →
  pool pls w0 s jobs results → (k, pl, m) ∈ jobs → (k, res) ∈ results →
  ∃ w' i r err, feed pl w0 m = Ok (w', i, r, err) ∧
    res = (match r with Some _ => Some k | None => None end, err) ∧
    ∀ n, event_view n (c_world s) k = event_view n w' i.
Proof. intros C pls w0 s jobs results k pl m res Hb Hc. exact (pool_results C pls w0 Hb Hc s jobs results k pl m res). Qed.
Print Assumptions C54_any_stateless.

(** ** An instance: two goroutines, three events, taking turns *)
Definition pool_pl : pipeline :=
  mkPipeline "p"
    [simple "p.0" (set_process (mkSet "" "tags.kind" 0));
     simple "p.1" (lowercase_process (λ _, "log") (mkCase "tags.kind" ""));
     PProc "p.2" "" false false [simple "p.2.0" (append_process (mkAppend "err" "bad"))]
       (append_process (mkAppend "list" "x"))] [].
Definition pool_w0 : world := mkWorld (mkHeap [mkString "Log"] []) [] [] [].

Notation pstate := (cstate * list (nat * pipeline * gomap tree) * list (nat * (option nat * option goerr)))%type.
Inductive act : Type := Spawn | Make (i : nat) (m : gomap tree) | Turn (i : nat).
Definition acts_one (x : pstate) (a : act) : pstate :=
  let '(mkC w ts, jobs, rs) := x in
  match a with
  | Spawn => (mkC w (ts ++ [TIdle None]), jobs, rs)
  | Make i m =>
      match ts !! i with
      | Some (TIdle _) => let '(w', k) := new_event w m in
          (mkC w' (<[i := tstart pool_pl (Some k)]> ts), (k, pool_pl, m) :: jobs, rs)
      | _ => x
      end
  | Turn i =>
      match ts !! i with
      | Some (TRun (Some k) pe c st) => let '(w', t') := tstep w (Some k) pe c st in
          (mkC w' (<[i := t']> ts), jobs, match t' with TIdle (Some res) => (k, res) :: rs | _ => rs end)
      | _ => x
      end
  end.
Lemma acts_one_pool x a : pool [pool_pl] pool_w0 x.1.1 x.1.2 x.2 →
  let y := acts_one x a in pool [pool_pl] pool_w0 y.1.1 y.1.2 y.2.
Proof.
  destruct x as [[[w ts] jobs] rs]. simpl. intros H. destruct a as [|i m|i].
  - by apply po_spawn.
  - destruct (ts !! i) as [[res| |]|] eqn:E; try done. destruct (new_event w m) as [w' k] eqn:En.
    eapply po_feed; [done|done|by left|done].
  - destruct (ts !! i) as [[|[k|] pe c st|]|] eqn:E; try done. destruct (tstep w (Some k) pe c st) as [w' t'] eqn:En.
    by eapply po_move.
Qed.
Lemma acts_pool l : ∀ x, pool [pool_pl] pool_w0 x.1.1 x.1.2 x.2 →
  let y := fold_left acts_one l x in pool [pool_pl] pool_w0 y.1.1 y.1.2 y.2.
Proof. induction l as [|a l IH]; intros x H; [done|]. simpl. by apply IH, acts_one_pool. Qed.

Definition pool_run : pstate :=
  fold_left acts_one
    ([Spawn; Spawn; Make 0 [("list", TArr [TInt 1])]; Make 1 [("list", TInt 2)]] ++
     concat (repeat [Turn 0; Turn 1] 30) ++ [Make 0 [("a", TBool true)]] ++ concat (repeat [Turn 0; Turn 1; Turn 1] 30))
    (mkC pool_w0 [], [], []).

Example C54_ex :
  (∀ pl, pl ∈ [pool_pl] → Forall (λ q, builtin [0] (p_prog q)) (pl_all pl)) ∧
  (∀ p, p ∈ [0] → ∃ v, hvals (w_heap pool_w0) !! p = Some v ∧ plain v) ∧
  pool [pool_pl] pool_w0 pool_run.1.1 pool_run.1.2 pool_run.2 ∧
  map (λ j, (j.1.1, j.2)) pool_run.1.2 =
    [(2, [("a", TBool true)]); (1, [("list", TInt 2)]); (0, [("list", TArr [TInt 1])])] ∧
  pool_run.2 = [(2, (Some 2, None)); (1, (Some 1, None)); (0, (Some 0, None))] ∧
  event_view 4 (c_world pool_run.1.1) 0 = Some [("list", TArr [TInt 1; TStr "x"]); ("tags", TObj [("kind", TStr "log")])] ∧
  event_view 4 (c_world pool_run.1.1) 1 =
    Some [("err", TArr [TStr "bad"]); ("list", TInt 2); ("tags", TObj [("kind", TStr "log")])] ∧
  event_view 4 (c_world pool_run.1.1) 2 =
    Some [("a", TBool true); ("list", TArr [TStr "x"]); ("tags", TObj [("kind", TStr "log")])] ∧
  (* while both goroutines were inside Process *)
  (let mid := fold_left acts_one [Spawn; Spawn; Make 0 []; Make 1 []; Turn 0; Turn 1; Turn 0; Turn 1; Turn 0; Turn 1; Turn 0; Turn 1]
      (mkC pool_w0 [], [], []) in
   inside_all "p.0" (c_threads mid.1.1) = 2 ∧
   event_view 4 (c_world mid.1.1) 0 = Some [("tags", TObj [("kind", TStr "Log")])] ∧
   event_view 4 (c_world mid.1.1) 1 = Some [("tags", TObj [("kind", TStr "Log")])]).
Proof.
  split_and!.
  - intros pl ->%elem_of_list_singleton.
    change (pl_all pool_pl) with
      [simple "p.0" (set_process (mkSet "" "tags.kind" 0));
       simple "p.1" (lowercase_process (λ _, "log") (mkCase "tags.kind" ""));
       PProc "p.2" "" false false [simple "p.2.0" (append_process (mkAppend "err" "bad"))]
         (append_process (mkAppend "list" "x"));
       simple "p.2.0" (append_process (mkAppend "err" "bad"))].
    repeat (apply Forall_cons; split); [| | | |constructor].
    + apply bi_set. left.
    + apply bi_lowercase.
    + apply bi_append.
    + apply bi_append.
  - intros p ->%elem_of_list_singleton. exists (mkString "Log"). by split_and!.
  - apply acts_pool. apply po_init.
  - vm_compute; reflexivity.
  - vm_compute; reflexivity.
  - vm_compute; reflexivity.
  - vm_compute; reflexivity.
  - vm_compute; reflexivity.
  - cbv zeta. split_and!; vm_compute; reflexivity.
Qed.
