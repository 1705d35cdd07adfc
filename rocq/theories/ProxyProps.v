(** * C51: the event a processor sees is the event of the pipeline.

    pkg/pipeline/event.go:35-57: the processor gets a [*pipelineEvent] whose Put,
    TryPut, Get and Delete forward to the event.  Theorems only. *)
From Verif Require Import Processors Pipeline.

(** A client of an event: any program that makes calls on it, each one depending
    on what the earlier ones returned, and allocates values to store. *)
Inductive client (A : Type) : Type :=
| KDone (a : A)
| KPut (key : string) (v : option ptr) (k : option ptr → option goerr → client A)
| KTryPut (key : string) (v : option ptr) (k : option ptr → option goerr → client A)
| KGet (key : string) (k : option ptr → client A)
| KDelete (key : string) (k : option ptr → client A)
| KNew (v : Value) (k : ptr → client A).
Arguments KDone {A}. Arguments KPut {A}. Arguments KTryPut {A}. Arguments KGet {A}.
Arguments KDelete {A}. Arguments KNew {A}.

(** The client holding the [*event.Event] itself. *)
Fixpoint on_event {A} (c : client A) (h : heap) (e : event) : Outcome (heap * event * A) :=
  match c with
  | KDone a => Ok (h, e, a)
  | KPut key v k =>
      match Put h e key v with
      | Ok r => on_event (k (put_old r) (put_err r)) (put_heap r) (put_event r)
      | Panic => Panic
      end
  | KTryPut key v k =>
      match TryPut h e key v with
      | Ok r => on_event (k (put_old r) (put_err r)) (put_heap r) (put_event r)
      | Panic => Panic
      end
  | KGet key k =>
      match Get h e key with Ok (h', v) => on_event (k v) h' e | Panic => Panic end
  | KDelete key k =>
      match EvDelete h e key with Ok (h', v) => on_event (k v) h' e | Panic => Panic end
  | KNew v k => let '(h', p) := alloc_val h v in on_event (k p) h' e
  end.

(** The same client as a processor. *)
Fixpoint as_processor {A} (c : client A) : prog A :=
  match c with
  | KDone a => Ret a
  | KPut key v k => PPut key v (λ o err, as_processor (k o err))
  | KTryPut key v k => PTryPut key v (λ o err, as_processor (k o err))
  | KGet key k => PGet key (λ v, as_processor (k v))
  | KDelete key k => PDelete key (λ v, as_processor (k v))
  | KNew v k => PNew v (λ p, as_processor (k p))
  end.

(** ** C51 *)
(** Every answer and the final event are the same, no other event, counter or
    input is touched, and the calls neither cancel nor drop. *)
Theorem C51_processor_sees_the_event : ∀ A (c : client A) w pe i e,
  pe_data pe = Some i → w_events w !! i = Some e →
  run_prog (as_processor c) w pe =
  match on_event c (w_heap w) e with
  | Panic => Panic
  | Ok (h', e', a) => Ok (mkWorld h' (<[i := e']> (w_events w)) (w_env w) (w_log w), pe, a)
  end.
Proof.
  intros A c. induction c as [a|key v k IH|key v k IH|key k IH|key k IH|v k IH]; intros w pe i e Hd Hi; cbn.
  - rewrite list_insert_id by done. by destruct w.
  - unfold evt_of. rewrite Hd, Hi. destruct (Put (w_heap w) e key v) as [r|]; [|done].
    rewrite (IH _ _ _ _ i (put_event r)); [|done|by apply list_lookup_insert, lookup_lt_Some with e].
    simpl. destruct (on_event _ _ _) as [[[h' e'] a]|]; [|done]. by rewrite list_insert_insert.
  - unfold evt_of. rewrite Hd, Hi. destruct (TryPut (w_heap w) e key v) as [r|]; [|done].
    rewrite (IH _ _ _ _ i (put_event r)); [|done|by apply list_lookup_insert, lookup_lt_Some with e].
    simpl. destruct (on_event _ _ _) as [[[h' e'] a]|]; [|done]. by rewrite list_insert_insert.
  - unfold evt_of. rewrite Hd, Hi. destruct (Get (w_heap w) e key) as [[h' v]|]; [|done].
    by rewrite (IH _ _ _ i e).
  - unfold evt_of. rewrite Hd, Hi. destruct (EvDelete (w_heap w) e key) as [[h' v]|]; [|done].
    by rewrite (IH _ _ _ i e).
  - by rewrite (IH _ _ _ i e).
Qed.
Print Assumptions C51_processor_sees_the_event.

(** The same for a pipeline holding that one processor: the event handed back shows
    exactly what the client did, and its error is the pipeline's error. *)
Theorem C51_pipeline_of_one : ∀ (c : client (option goerr)) id cond pid w i e h' e' err,
  w_events w !! i = Some e →
  on_event c (w_heap w) e = Ok (h', e', err) →
  ∃ log, Process (mkPipeline pid [PProc id cond false false [] (as_processor c)] []) w (Some i) =
    Ok (mkWorld h' (<[i := e']> (w_events w)) (w_env w) log,
        match err with None => Some i | Some _ => None end, err).
Proof.
  intros c id cond pid w i e h' e' err Hi Hc.
  pose proof (C51_processor_sees_the_event _ c (inc w id MIn) (mkPEvent (Some i) false false) i e eq_refl Hi) as H.
  cbn [inc w_heap w_events w_env w_log] in H. rewrite Hc in H.
  unfold Process, pl_process. cbn [pl_processors pl_onf run_list pp_process inc]. rewrite H.
  destruct err as [err|]; cbn; eexists; reflexivity.
Qed.
Print Assumptions C51_pipeline_of_one.

(** TryPut through the pipeline does not overwrite; Delete does remove. *)
Example C51_ex : ∃ h' e' a,
  on_event (KNew (mkString "x") (λ p, KPut "a.b" (Some p) (λ _ _,
    KNew (mkString "y") (λ q, KTryPut "a.b" (Some q) (λ o err,
      KDelete "a" (λ d, KGet "a" (λ g, KDone (o, err, d, g)))))))) (mkHeap [] []) newEvent
  = Ok (h', e', a) ∧ a.1.1.1 = Some 0 ∧ a.1.1.2 ≠ None ∧ a.1.2 = Some 1 ∧ a.2 = None.
Proof. eexists _, _, _. split; [vm_compute; reflexivity|]. done. Qed.
