(** * Goroutines processing events through pipelines concurrently.

    A small-step version of Pipeline.v: every operation of a processor, every counter
    increment (an atomic operation of the metrics library) and every call or return
    is one step, and steps of different goroutines interleave arbitrarily.  The
    operations of processors on values and events act on the shared world in the order
    in which they are scheduled: torn or reordered memory accesses of Go programs with
    data races are not modelled. *)
From Verif Require Export PipelineFacts PipelineRun.

(** ** One operation of a program: the cases of [run_prog]. *)
Definition prog_step {A} (c : prog A) (w : world) (pe : pevent) : Outcome (world * pevent * prog A) :=
  match c with
  | Ret a => Ok (w, pe, Ret a)
  | PPut key v k =>
      match evt_of w pe with
      | None => Panic
      | Some (i, e) =>
          match Put (w_heap w) e key v with
          | Panic => Panic
          | Ok r => Ok (mkWorld (put_heap r) (<[i := put_event r]> (w_events w)) (w_env w) (w_log w), pe,
                        k (put_old r) (put_err r))
          end
      end
  | PTryPut key v k =>
      match evt_of w pe with
      | None => Panic
      | Some (i, e) =>
          match TryPut (w_heap w) e key v with
          | Panic => Panic
          | Ok r => Ok (mkWorld (put_heap r) (<[i := put_event r]> (w_events w)) (w_env w) (w_log w), pe,
                        k (put_old r) (put_err r))
          end
      end
  | PGet key k =>
      match evt_of w pe with
      | None => Panic
      | Some (i, e) =>
          match Get (w_heap w) e key with Panic => Panic | Ok (h, v) => Ok (set_heap w h, pe, k v) end
      end
  | PDelete key k =>
      match evt_of w pe with
      | None => Panic
      | Some (i, e) =>
          match EvDelete (w_heap w) e key with Panic => Panic | Ok (h, v) => Ok (set_heap w h, pe, k v) end
      end
  | PCancel k => Ok (w, pe_Cancel pe, k)
  | PDrop k => Ok (w, pe_Drop pe, k)
  | PNew v k => let '(h, p) := alloc_val (w_heap w) v in Ok (set_heap w h, pe, k p)
  | PNewMap k => let '(h, r) := alloc_map (w_heap w) in Ok (set_heap w h, pe, k r)
  | PLoad p k => match deref (w_heap w) p with Panic => Panic | Ok v => Ok (w, pe, k v) end
  | PStore p v k =>
      match p with
      | Some q => if decide (q < length (hvals (w_heap w)))
                  then Ok (set_heap w (set_val (w_heap w) q v), pe, k) else Panic
      | None => Panic
      end
  | PMapRead r k => Ok (w, pe, k (map_of (w_heap w) r))
  | PMapWrite r key v k =>
      match map_write (w_heap w) r key v with Panic => Panic | Ok h => Ok (set_heap w h, pe, k) end
  | PMapDelete r key k => Ok (set_heap w (map_delete (w_heap w) r key), pe, k)
  | PInput k =>
      match w_env w with
      | [] => Ok (w, pe, k 0)
      | x :: env => Ok (mkWorld (w_heap w) (w_events w) env (w_log w), pe, k x)
      end
  | PPanic => Panic
  end.

(** ** Goroutines *)
(** Calls in progress, innermost first. *)
Inductive frame : Type :=
| FProc (id : string) (ignf ignm : bool) (onf : list pproc)  (* processor.go:51, inside p.process.Process *)
| FHandlers (id : string) (ignf : bool) (rest : list pproc)  (* processor.go:66-70 *)
| FMain (onf rest : list pproc)                              (* pipeline.go:83-88 *)
| FGlobal (rest : list pproc).                               (* pipeline.go:91-96 *)
Inductive ctl : Type :=
| CEnter (p : pproc)                 (* calling pipelineProcessor.Process *)
| CProg (c : prog (option goerr))    (* inside a processor *)
| CRet (r : option goerr)            (* a call returned *)
| CLoop (r : option goerr).          (* at the head of a loop, err = r *)
(** A goroutine is idle (with the result of its last Process call), inside Process
    with event [evt], or has panicked. *)
Inductive thread : Type :=
| TIdle (res : option (option nat * option goerr))
| TRun (evt : option nat) (pe : pevent) (c : ctl) (st : list frame)
| TPanic (st : list frame).

(** One step of a goroutine inside Process; processor.go:48-86, pipeline.go:63-104. *)
Definition tstep (w : world) (evt : option nat) (pe : pevent) (c : ctl) (st : list frame) : world * thread :=
  match c with
  | CEnter (PProc id _ ignf ignm onf p) =>
      (inc w id MIn, TRun evt pe (CProg p) (FProc id ignf ignm onf :: st))
  | CProg (Ret r) => (w, TRun evt pe (CRet r) st)
  | CProg p =>
      match prog_step p w pe with
      | Panic => (w, TPanic st)
      | Ok (w', pe', p') => (w', TRun evt pe' (CProg p') st)
      end
  | CRet r =>
      match st with
      | [] => (w, TIdle (Some match r with
                              | Some err => (None, Some err)
                              | None => (if pe_dropped pe then None else pe_data pe, None)
                              end))
      | FProc id ignf ignm onf :: st' =>
          match r with
          | None => (inc w id MOut, TRun evt pe (CRet None) st')
          | Some err =>
              if pe_dropped pe then (inc w id MDiscarded, TRun evt pe (CRet None) st')
              else if ignm && is_missing err then (inc w id MOut, TRun evt pe (CRet None) st')
              else (w, TRun evt pe (CLoop (Some err)) (FHandlers id ignf onf :: st'))
          end
      | FHandlers id ignf rest :: st' =>
          (w, TRun evt pe (CLoop r) (FHandlers id ignf (if r then [] else rest) :: st'))
      | FMain onf rest :: st' => (w, TRun evt pe (CLoop r) (FMain onf (if r then [] else rest) :: st'))
      | FGlobal rest :: st' => (w, TRun evt pe (CLoop r) (FGlobal (if r then [] else rest) :: st'))
      end
  | CLoop r =>
      match st with
      | FHandlers id ignf (p :: rest) :: st' => (w, TRun evt pe (CEnter p) (FHandlers id ignf rest :: st'))
      | FHandlers id ignf [] :: st' =>
          if ignf && is_Some_b r then (inc w id MOut, TRun evt pe (CRet None) st')
          else (inc w id MErrors, TRun evt pe (CRet r) st')
      | FMain onf (p :: rest) :: st' => (w, TRun evt pe (CEnter p) (FMain onf rest :: st'))
      | FMain onf [] :: st' =>
          match r with
          | None => (w, TRun evt pe (CRet None) st')
          | Some err => (w, TRun evt pe (CLoop (Some err)) (FGlobal onf :: st'))
          end
      | FGlobal (p :: rest) :: st' => (w, TRun evt pe (CEnter p) (FGlobal rest :: st'))
      | FGlobal [] :: st' => (w, TRun evt pe (CRet r) st')
      | _ => (w, TPanic st) (* not reached *)
      end
  end.
(** Calling Process (pipeline.go:63-66). *)
Definition tstart (pl : pipeline) (evt : option nat) : thread :=
  TRun evt (mkPEvent evt false false) (CLoop None) [FMain (pl_onf pl) (pl_processors pl)].

(** ** Any number of goroutines, any schedule *)
Record cstate : Type := mkC { c_world : world; c_threads : list thread }.
(** A step: a new goroutine appears, an idle one calls Process on some pipeline with
    some event, or one inside Process moves. *)
Inductive cstep (pls : list pipeline) : cstate → cstate → Prop :=
| cs_spawn w ts : cstep pls (mkC w ts) (mkC w (ts ++ [TIdle None]))
| cs_call w ts i res pl evt : ts !! i = Some (TIdle res) → pl ∈ pls →
    cstep pls (mkC w ts) (mkC w (<[i := tstart pl evt]> ts))
| cs_move w ts i evt pe c st w' t' : ts !! i = Some (TRun evt pe c st) → tstep w evt pe c st = (w', t') →
    cstep pls (mkC w ts) (mkC w' (<[i := t']> ts)).
Inductive csteps (pls : list pipeline) : cstate → cstate → Prop :=
| cs_refl s : csteps pls s s
| cs_more s1 s2 s3 : csteps pls s1 s2 → cstep pls s2 s3 → csteps pls s1 s3.

(** ** Specification: how often component [id] is being executed. *)
Definition frame_in (id : string) (f : frame) : nat :=
  match f with
  | FProc id' _ _ _ | FHandlers id' _ _ => if String.eqb id id' then 1 else 0
  | _ => 0
  end.
Definition frames_in (id : string) (st : list frame) : nat := sum_list (map (frame_in id) st).
Definition inside (id : string) (t : thread) : nat :=
  match t with TIdle _ => 0 | TRun _ _ _ st => frames_in id st | TPanic st => frames_in id st end.
Definition inside_all (id : string) (ts : list thread) : nat := sum_list (map (inside id) ts).

(** ** Proofs *)
Lemma prog_step_run {A} (c : prog A) w pe :
  run_prog c w pe = match prog_step c w pe with Panic => Panic | Ok (w', pe', c') => run_prog c' w' pe' end.
Proof.
  destruct c; cbn [prog_step run_prog]; try done;
    repeat match goal with
    | |- context [match evt_of ?w ?pe with _ => _ end] => destruct (evt_of w pe) as [[]|]
    | |- context [match Put ?a ?b ?c ?d with _ => _ end] => destruct (Put a b c d)
    | |- context [match TryPut ?a ?b ?c ?d with _ => _ end] => destruct (TryPut a b c d)
    | |- context [match Get ?a ?b ?c with _ => _ end] => destruct (Get a b c) as [[]|]
    | |- context [match EvDelete ?a ?b ?c with _ => _ end] => destruct (EvDelete a b c) as [[]|]
    | |- context [match deref ?a ?b with _ => _ end] => destruct (deref a b)
    | |- context [match map_write ?a ?b ?c ?d with _ => _ end] => destruct (map_write a b c d)
    | |- context [match w_env ?w with _ => _ end] => destruct (w_env w)
    | |- context [match ?p with Some _ => _ | None => _ end] => destruct p
    | |- context [if decide ?P then _ else _] => destruct (decide P)
    end; try done.
Qed.
Lemma prog_step_frame {A} (c c' : prog A) w pe w' pe' : prog_step c w pe = Ok (w', pe', c') →
  w_log w' = w_log w ∧ pe_data pe' = pe_data pe ∧ pe_dropped pe' = pe_dropped pe.
Proof.
  destruct c; cbn [prog_step]; intros H; try (simplify_eq; done);
    repeat match type of H with
    | context [match evt_of ?w ?pe with _ => _ end] => destruct (evt_of w pe) as [[]|]
    | context [match Put ?a ?b ?c ?d with _ => _ end] => destruct (Put a b c d)
    | context [match TryPut ?a ?b ?c ?d with _ => _ end] => destruct (TryPut a b c d)
    | context [match Get ?a ?b ?c with _ => _ end] => destruct (Get a b c) as [[]|]
    | context [match EvDelete ?a ?b ?c with _ => _ end] => destruct (EvDelete a b c) as [[]|]
    | context [match deref ?a ?b with _ => _ end] => destruct (deref a b)
    | context [match map_write ?a ?b ?c ?d with _ => _ end] => destruct (map_write a b c d)
    | context [match w_env ?w with _ => _ end] => destruct (w_env w)
    | context [match ?p with Some _ => _ | None => _ end] => destruct p
    | context [if decide ?P then _ else _] => destruct (decide P)
    end; unfold alloc_val, alloc_map in H; simplify_eq; done.
Qed.

(** Finished calls of [id]. *)
Definition finished (id : string) (l : list (string * metric)) : nat :=
  count id MOut l + count id MErrors l + count id MDiscarded l.

Lemma count_inc id m w id' m' :
  count id m (w_log (inc w id' m')) = count id m (w_log w) + (if decide ((id', m') = (id, m)) then 1 else 0).
Proof.
  unfold inc. cbn [w_log]. rewrite count_app. f_equal. unfold count. rewrite filter_cons.
  by destruct (decide ((id', m') = (id, m))).
Qed.

(** Every step keeps received = finished + inside. *)
Lemma tstep_balance id w evt pe c st w' t' : tstep w evt pe c st = (w', t') →
  count id MIn (w_log w') + finished id (w_log w) + inside id (TRun evt pe c st) =
  count id MIn (w_log w) + finished id (w_log w') + inside id t'.
Proof.
  assert (∀ w id' m, m ≠ MIn → count id MIn (w_log (inc w id' m)) = count id MIn (w_log w) ∧
     finished id (w_log (inc w id' m)) = finished id (w_log w) + (if String.eqb id id' then 1 else 0)) as Hinc.
  { intros w0 id' m Hm. unfold finished. rewrite !count_inc.
    destruct (String.eqb_spec id id') as [->|Hne].
    - destruct m; try done; repeat case_decide; simplify_eq; split; lia.
    - repeat case_decide; simplify_eq; split; lia. }
  intros H. unfold tstep in H. destruct c as [[pid pc ignf ignm onf p]|p|r|r].
  - simplify_eq. unfold finished. rewrite !count_inc. unfold inside, frames_in. simpl.
    destruct (String.eqb_spec id pid) as [->|Hne]; repeat case_decide; simplify_eq; lia.
  - destruct p eqn:Ep; try (simplify_eq; done).
    all: destruct (prog_step _ w pe) as [[[? ?] ?]|] eqn:E; simplify_eq; try done.
    all: apply prog_step_frame in E as (Hl & _); rewrite Hl; done.
  - destruct st as [|[id' ignf ignm onf|id' ignf rest|onf rest|rest] st]; simplify_eq; try done.
    destruct r as [err|].
    + destruct (pe_dropped pe); [|destruct (ignm && is_missing err)]; simplify_eq; try done.
      * destruct (Hinc w id' MDiscarded) as [-> ->]; [done|]. unfold inside, frames_in. simpl. lia.
      * destruct (Hinc w id' MOut) as [-> ->]; [done|]. unfold inside, frames_in. simpl. lia.
    + simplify_eq. destruct (Hinc w id' MOut) as [-> ->]; [done|]. unfold inside, frames_in. simpl. lia.
  - destruct st as [|[id' ignf ignm onf|id' ignf [|q rest]|onf [|q rest]|[|q rest]] st]; simplify_eq; try done.
    + destruct (ignf && is_Some_b r); simplify_eq.
      * destruct (Hinc w id' MOut) as [-> ->]; [done|]. unfold inside, frames_in. simpl. lia.
      * destruct (Hinc w id' MErrors) as [-> ->]; [done|]. unfold inside, frames_in. simpl. lia.
    + destruct r; simplify_eq; done.
Qed.

Lemma inside_all_insert id ts i t t' : ts !! i = Some t →
  inside_all id (<[i := t']> ts) + inside id t = inside_all id ts + inside id t'.
Proof.
  unfold inside_all. revert i. induction ts as [|x ts IH]; intros [|i] H; simpl in *; try done.
  - simplify_eq. lia.
  - specialize (IH i H). lia.
Qed.

Lemma inside_all_snoc id ts t : inside_all id (ts ++ [t]) = inside_all id ts + inside id t.
Proof. unfold inside_all. induction ts as [|x ts IH]; simpl; lia. Qed.

Lemma inside_tstart id pl evt : inside id (tstart pl evt) = 0.
Proof. done. Qed.

Definition balanced_state (id : string) (s : cstate) : Prop :=
  count id MIn (w_log (c_world s)) = finished id (w_log (c_world s)) + inside_all id (c_threads s).

Lemma cstep_balanced pls id s s' : cstep pls s s' → balanced_state id s → balanced_state id s'.
Proof.
  unfold balanced_state. intros H. destruct H as [w ts|w ts i res pl evt Hi Hpl|w ts i evt pe c st w' t' Hi Hs]; simpl; intros Hb.
  - rewrite Hb, inside_all_snoc. simpl. lia.
  - pose proof (inside_all_insert id ts i _ (tstart pl evt) Hi) as Hins. rewrite inside_tstart in Hins. simpl in Hins. lia.
  - pose proof (inside_all_insert id ts i _ t' Hi) as Hins.
    pose proof (tstep_balance id _ _ _ _ _ _ _ Hs) as Hst. lia.
Qed.
Lemma csteps_balanced pls id s s' : csteps pls s s' → balanced_state id s → balanced_state id s'.
Proof. induction 1 as [|s1 s2 s3 H1 IH H2]; intros Hb; [done|]. eapply cstep_balanced; eauto. Qed.

Lemma cstep_mono pls id m s s' : cstep pls s s' →
  count id m (w_log (c_world s)) ≤ count id m (w_log (c_world s')).
Proof.
  destruct 1 as [w ts|w ts i res pl evt Hi Hpl|w ts i evt pe c st w' t' Hi Hs]; simpl; try lia.
  assert (∀ w id' m', count id m (w_log w) ≤ count id m (w_log (inc w id' m'))) as Hinc.
  { intros. rewrite count_inc. lia. }
  unfold tstep in Hs. destruct c as [[pid pc ignf ignm onf p]|p|r|r].
  - simplify_eq. apply Hinc.
  - destruct p eqn:Ep; try (simplify_eq; done).
    all: destruct (prog_step _ w pe) as [[[? ?] ?]|] eqn:E; simplify_eq; try done.
    all: apply prog_step_frame in E as (Hl & _); by rewrite Hl.
  - destruct st as [|[id' ignf ignm onf|id' ignf rest|onf rest|rest] st]; simplify_eq; try done.
    destruct r as [err|]; [|simplify_eq; apply Hinc].
    destruct (pe_dropped pe); [|destruct (ignm && is_missing err)]; simplify_eq; try done; apply Hinc.
  - destruct st as [|[id' ignf ignm onf|id' ignf [|q rest]|onf [|q rest]|[|q rest]] st]; simplify_eq; try done.
    + destruct (ignf && is_Some_b r); simplify_eq; apply Hinc.
    + destruct r; simplify_eq; done.
Qed.

(** *** What a goroutine gets back *)
Definition result_ok (evt : option nat) (res : option nat * option goerr) : Prop :=
  res = (evt, None) ∨ ∃ err, res = (None, Some err).
Definition thread_ok (t : thread) : Prop :=
  match t with
  | TRun evt pe _ _ => pe_data pe = evt ∧ pe_dropped pe = false
  | _ => True
  end.
Lemma tstep_ok w evt pe c st w' t' : thread_ok (TRun evt pe c st) → tstep w evt pe c st = (w', t') →
  thread_ok t' ∧ match t' with
                 | TIdle (Some res) => result_ok evt res
                 | TIdle None => False
                 | TRun evt' _ _ _ => evt' = evt
                 | TPanic _ => True
                 end.
Proof.
  intros [Hd Hdr] H. unfold tstep in H. destruct c as [[pid pc ignf ignm onf p]|p|r|r].
  - by simplify_eq.
  - destruct p eqn:Ep; try (simplify_eq; done).
    all: destruct (prog_step _ w pe) as [[[? ?] ?]|] eqn:E; simplify_eq; try done.
    all: apply prog_step_frame in E as (_ & H1 & H2); split; [split|]; congruence.
  - destruct st as [|[id' ignf ignm onf|id' ignf rest|onf rest|rest] st]; simplify_eq; try done.
    + split; [done|]. rewrite Hdr. destruct r; [by right; eauto|]. by left.
    + destruct r as [err|]; [|by simplify_eq].
      rewrite Hdr in H. destruct (ignm && is_missing err); by simplify_eq.
  - destruct st as [|[id' ignf ignm onf|id' ignf [|q rest]|onf [|q rest]|[|q rest]] st]; simplify_eq; try done.
    + destruct (ignf && is_Some_b r); by simplify_eq.
    + destruct r; by simplify_eq.
Qed.

(** *** Without interleaving, the steps compute Process *)
Inductive tsteps (evt : option nat) : world * thread → world * thread → Prop :=
| ts_refl s : tsteps evt s s
| ts_step w pe c st s2 s3 : tstep w evt pe c st = s2 → tsteps evt s2 s3 → tsteps evt (w, TRun evt pe c st) s3.
Lemma tsteps_trans evt s1 s2 s3 : tsteps evt s1 s2 → tsteps evt s2 s3 → tsteps evt s1 s3.
Proof. induction 1; [done|]. intros. eapply ts_step; eauto. Qed.
Lemma tsteps_one evt w pe c st s2 : tstep w evt pe c st = s2 → tsteps evt (w, TRun evt pe c st) s2.
Proof. intros. eapply ts_step; [done|]. apply ts_refl. Qed.

Lemma prog_tsteps evt st p : ∀ w pe,
  match run_prog p w pe with
  | Ok (w', pe', r) => tsteps evt (w, TRun evt pe (CProg p) st) (w', TRun evt pe' (CRet r) st)
  | Panic => ∃ w', tsteps evt (w, TRun evt pe (CProg p) st) (w', TPanic st)
  end.
Proof.
  induction p; intros w pe; rewrite prog_step_run;
    try match goal with
    | |- context [prog_step (Ret ?a) w pe] => cbn [prog_step run_prog]; by apply tsteps_one
    end;
    match goal with |- context [prog_step ?p w pe] =>
      assert (tstep w evt pe (CProg p) st = match prog_step p w pe with
        | Panic => (w, TPanic st) | Ok (w', pe', p') => (w', TRun evt pe' (CProg p') st) end) as Hs by done;
      destruct (prog_step p w pe) as [[[w1 pe1] p1]|] eqn:E; [|exists w; by apply tsteps_one]
    end;
    cbn [prog_step] in E;
    repeat match type of E with
    | context [match evt_of ?w ?pe with _ => _ end] => destruct (evt_of w pe) as [[]|]
    | context [match Put ?a ?b ?c ?d with _ => _ end] => destruct (Put a b c d)
    | context [match TryPut ?a ?b ?c ?d with _ => _ end] => destruct (TryPut a b c d)
    | context [match Get ?a ?b ?c with _ => _ end] => destruct (Get a b c) as [[]|]
    | context [match EvDelete ?a ?b ?c with _ => _ end] => destruct (EvDelete a b c) as [[]|]
    | context [match deref ?a ?b with _ => _ end] => destruct (deref a b)
    | context [match map_write ?a ?b ?c ?d with _ => _ end] => destruct (map_write a b c d)
    | context [match w_env ?w with _ => _ end] => destruct (w_env w)
    | context [match ?p with Some _ => _ | None => _ end] => destruct p
    | context [if decide ?P then _ else _] => destruct (decide P)
    end; try done; unfold alloc_val, alloc_map in E; simplify_eq;
    match goal with
    | IH : ∀ (a : _) (b : _) (w0 : world) (pe0 : pevent), _ |- context [run_prog (?k ?x ?y) ?w1 ?pe1] => specialize (IH x y w1 pe1)
    | IH : ∀ (a : _) (w0 : world) (pe0 : pevent), _ |- context [run_prog (?k ?x) ?w1 ?pe1] => specialize (IH x w1 pe1)
    | IH : ∀ (w0 : world) (pe0 : pevent), _ |- context [run_prog ?k ?w1 ?pe1] => specialize (IH w1 pe1)
    end;
    match goal with
    | IH : context [run_prog ?c ?w1 ?pe1] |- _ =>
        destruct (run_prog c w1 pe1) as [[[w2 pe2] r2]|];
          [eapply tsteps_trans; [by apply tsteps_one|]; exact IH
          |destruct IH as (w2 & IH); exists w2; eapply tsteps_trans; [by apply tsteps_one|]; exact IH]
    end.
Qed.

Definition loop_frame (F : list pproc → frame) : Prop :=
  (∀ w evt pe r p rest st,
     tstep w evt pe (CLoop r) (F (p :: rest) :: st) = (w, TRun evt pe (CEnter p) (F rest :: st))) ∧
  (∀ w evt pe r rest st,
     tstep w evt pe (CRet r) (F rest :: st) = (w, TRun evt pe (CLoop r) (F (if r then [] else rest) :: st))).
Definition enter_ok (p : pproc) : Prop := ∀ evt w pe st,
  match pp_process p w pe with
  | Ok (w', pe', r) => tsteps evt (w, TRun evt pe (CEnter p) st) (w', TRun evt pe' (CRet r) st)
  | Panic => ∃ w' st', tsteps evt (w, TRun evt pe (CEnter p) st) (w', TPanic st')
  end.
Lemma run_list_tsteps F l : loop_frame F → Forall enter_ok l → ∀ evt w pe err st,
  match run_list pp_process l w pe err with
  | Ok (w', pe', r) => tsteps evt (w, TRun evt pe (CLoop err) (F l :: st)) (w', TRun evt pe' (CLoop r) (F [] :: st))
  | Panic => ∃ w' st', tsteps evt (w, TRun evt pe (CLoop err) (F l :: st)) (w', TPanic st')
  end.
Proof.
  intros [HL HR]. induction l as [|p l IH]; intros Hall evt w pe err st; cbn [run_list].
  - apply ts_refl.
  - apply Forall_cons in Hall as [Hp Hall]. specialize (Hp evt w pe (F l :: st)).
    destruct (pp_process p w pe) as [[[w1 pe1] [e|]]|].
    + eapply ts_step; [apply HL|]. eapply tsteps_trans; [exact Hp|]. apply tsteps_one. apply HR.
    + specialize (IH Hall evt w1 pe1 None st).
      destruct (run_list pp_process l w1 pe1 None) as [[[w2 pe2] r2]|].
      * eapply ts_step; [apply HL|]. eapply tsteps_trans; [exact Hp|].
        eapply ts_step; [apply HR|]. exact IH.
      * destruct IH as (w2 & st2 & IH). exists w2, st2.
        eapply ts_step; [apply HL|]. eapply tsteps_trans; [exact Hp|].
        eapply ts_step; [apply HR|]. exact IH.
    + destruct Hp as (w1 & st1 & Hp). exists w1, st1. eapply ts_step; [apply HL|]. exact Hp.
Qed.
Lemma pp_tsteps p : enter_ok p.
Proof.
  induction p as [id cond ignf ignm onf c IH] using pproc_ind'. intros evt w pe st. cbn [pp_process].
  pose proof (prog_tsteps evt (FProc id ignf ignm onf :: st) c (inc w id MIn) pe) as Hc.
  destruct (run_prog c (inc w id MIn) pe) as [[[w1 pe1] [err|]]|].
  - destruct (pe_dropped pe1) eqn:Ed; [|destruct (ignm && is_missing err) eqn:Em].
    + eapply ts_step; [done|]. eapply tsteps_trans; [exact Hc|]. apply tsteps_one. cbn [tstep]. by rewrite Ed.
    + eapply ts_step; [done|]. eapply tsteps_trans; [exact Hc|]. apply tsteps_one. cbn [tstep]. by rewrite Ed, Em.
    + pose proof (run_list_tsteps (FHandlers id ignf) onf) as Hl.
      assert (tsteps evt (w, TRun evt pe (CEnter (PProc id cond ignf ignm onf c)) st)
                (w1, TRun evt pe1 (CLoop (Some err)) (FHandlers id ignf onf :: st))) as H1.
      { eapply ts_step; [done|]. eapply tsteps_trans; [exact Hc|]. apply tsteps_one. cbn [tstep]. by rewrite Ed, Em. }
      specialize (Hl ltac:(done) IH evt w1 pe1 (Some err) st).
      destruct (run_list pp_process onf w1 pe1 (Some err)) as [[[w2 pe2] r2]|].
      * assert (is_Some_b r2 = match r2 with Some _ => true | None => false end) as Hb by done. rewrite <- Hb.
        destruct (ignf && is_Some_b r2) eqn:Ei.
        -- eapply tsteps_trans; [exact H1|]. eapply tsteps_trans; [exact Hl|]. apply tsteps_one. cbn [tstep]. by rewrite Ei.
        -- eapply tsteps_trans; [exact H1|]. eapply tsteps_trans; [exact Hl|]. apply tsteps_one. cbn [tstep]. by rewrite Ei.
      * destruct Hl as (w2 & st2 & Hl). exists w2, st2. eapply tsteps_trans; [exact H1|]. exact Hl.
  - eapply ts_step; [done|]. eapply tsteps_trans; [exact Hc|]. by apply tsteps_one.
  - destruct Hc as (w1 & Hc). eexists w1, _. eapply ts_step; [done|]. exact Hc.
Qed.
Lemma Process_tsteps pl w evt :
  match Process pl w evt with
  | Ok (w', r, err) => tsteps evt (w, tstart pl evt) (w', TIdle (Some (r, err)))
  | Panic => ∃ w' st, tsteps evt (w, tstart pl evt) (w', TPanic st)
  end.
Proof.
  unfold Process, pl_process, tstart. set (pe := mkPEvent evt false false).
  assert (∀ l, Forall enter_ok l) as Hall by (intros l; apply Forall_forall; intros; apply pp_tsteps).
  pose proof (run_list_tsteps (FMain (pl_onf pl)) (pl_processors pl) ltac:(done) (Hall _) evt w pe None []) as H1.
  destruct (run_list pp_process (pl_processors pl) w pe None) as [[[w1 pe1] [err|]]|].
  - pose proof (run_list_tsteps FGlobal (pl_onf pl) ltac:(done) (Hall _) evt w1 pe1 (Some err) []) as H2.
    destruct (run_list pp_process (pl_onf pl) w1 pe1 (Some err)) as [[[w2 pe2] r2]|].
    + assert (tsteps evt (w, TRun evt pe (CLoop None) [FMain (pl_onf pl) (pl_processors pl)])
                (w2, TRun evt pe2 (CRet r2) [])) as H3.
      { eapply tsteps_trans; [exact H1|]. eapply ts_step; [done|]. eapply tsteps_trans; [exact H2|]. by apply tsteps_one. }
      destruct r2 as [e2|].
      * eapply tsteps_trans; [exact H3|]. by apply tsteps_one.
      * destruct (pe_dropped pe2) eqn:Ed; (eapply tsteps_trans; [exact H3|]); apply tsteps_one; cbn [tstep]; by rewrite Ed.
    + destruct H2 as (w2 & st2 & H2). exists w2, st2. eapply tsteps_trans; [exact H1|]. eapply ts_step; [done|]. exact H2.
  - destruct (pe_dropped pe1) eqn:Ed; (eapply tsteps_trans; [exact H1|]); (eapply ts_step; [done|]);
      apply tsteps_one; cbn [tstep]; by rewrite Ed.
  - destruct H1 as (w1 & st1 & H1). eauto.
Qed.

Lemma csteps_trans pls a b c : csteps pls a b → csteps pls b c → csteps pls a c.
Proof. intros H1 H2. induction H2 as [|x y z _ IH Hs]; [done|]. eapply cs_more; [by apply IH|done]. Qed.

(** A goroutine that runs alone is one of the schedules. *)
Lemma tsteps_csteps pls evt s s' : tsteps evt s s' → ∀ ts i, ts !! i = Some s.2 →
  csteps pls (mkC s.1 ts) (mkC s'.1 (<[i := s'.2]> ts)).
Proof.
  induction 1 as [[w t]|w pe c st s2 s3 Hs Hss IH]; intros ts i Hi; simpl in *.
  - rewrite list_insert_id by done. apply cs_refl.
  - destruct s2 as [w2 t2]. simpl in *.
    assert (csteps pls (mkC w ts) (mkC w2 (<[i := t2]> ts))) as H1.
    { eapply cs_more; [apply cs_refl|]. by eapply cs_move. }
    specialize (IH (<[i := t2]> ts) i). rewrite list_insert_insert in IH.
    specialize (IH ltac:(rewrite list_lookup_insert; [done|by eapply lookup_lt_Some])).
    eapply csteps_trans; [exact H1|exact IH].
Qed.
