(** * The C library and the browser function, copies included: proofs. *)
From Verif Require Export ShareCmd.
From Verif Require Import JsonGrammarProps.
From Coq Require Import Lia.
Local Open Scope Z_scope.

Lemma gprocessed_text fmt b pl w i m fp : float_format fmt → pipe_as (w_heap w) b pl → Forall (fine_conf in_range) (pipe_confs b) →
  showing w i m fp → in_range (TObj m) → (∀ e, w_events w !! i = Some e → fields e ≠ None) →
  match gsem_pipe b (planted m) with
  | Gives (G', None, lg) => ∃ w2, Process pl w (Some i) = Ok (w2, Some i, None) ∧ pipe_as (w_heap w2) b pl ∧ w_log w2 = w_log w ++ lg ∧
      graph_ok in_range G' ∧
      ((circular G' ∧ ∀ f, marshal_of fmt f w2 (Some i) = Panic) ∨
       (¬ circular G' ∧ ∃ N o, (∀ f, (N ≤ f)%nat → marshal_of fmt f w2 (Some i) = Ok o) ∧
          (∀ f, marshal_of fmt f w2 (Some i) = Panic ∨ marshal_of fmt f w2 (Some i) = Ok o) ∧ text_of G' o))
  | Gives (G', Some e, lg) => ∃ w2, Process pl w (Some i) = Ok (w2, None, Some e) ∧ pipe_as (w_heap w2) b pl ∧ w_log w2 = w_log w ++ lg
  | Crashes => Process pl w (Some i) = Panic
  | Shares => False
  end.
Proof.
  intros Hf Hp Hc Hs Hr Hfe.
  pose proof (gsem_pipe_ok in_range ltac:(done) b Hc _ (planted_ok _ _ (range_tall _ Hr))) as Hk.
  pose proof (gsem_pipe_shares b (planted m)) as Hns.
  pose proof (pipe_gsem b pl w (mkPEvent (Some i) false false) i _ fp Hp eq_refl eq_refl (showing_drawn _ _ _ _ Hs)) as H.
  destruct (gsem_pipe b (planted m)) as [[[G' err] lg]| |]; [|unfold Process; cbn [grun_to] in H; by rewrite H|done]. cbn [grun_to fineC] in H, Hk.
  destruct H as (w2 & Hpl & Hm & Hlg). pose proof Hm as ((fp' & (e' & names & Hi' & Hst' & _) & _) & Hst & _).
  assert (pipe_as (w_heap w2) b pl) as Hp2.
  { eapply pipe_as_mono; [|exact Hp]. intros p t Hh. by eapply holds_stable. }
  destruct err as [err|].
  - exists w2. split_and!; try done. unfold Process. by rewrite Hpl.
  - assert (Process pl w (Some i) = Ok (w2, Some i, None)) as HP by (unfold Process; by rewrite Hpl).
    assert (fields e' ≠ None) as Hfe'.
    { destruct Hs as (e & He & _). destruct (Process_keeps _ _ _ _ _ _ HP i e He (Hfe e He)) as (e2 & Hi2 & He2). congruence. }
    exists w2. split_and!; try done. cbn [marshal_of]. rewrite Hi'. exact (graph_text fmt _ _ _ _ Hf Hst' Hfe' Hk).
Qed.

(** ** One call *)
(** The call does not return: the pipeline crashes, or its result contains itself. *)
Definition deadly (b : bpipe) (fs : gomap tree) : Prop :=
  match gsem_pipe b (planted fs) with Crashes => True | Gives (G', None, _) => circular G' | _ => False end.
Definition greplies (b : bpipe) (fs : gomap tree) (o : creply) : Prop :=
  match gsem_pipe b (planted fs) with
  | Gives (G', None, _) =>
      (∀ m', writable_as G' m' → ∃ text j, o = CText text ∧ document text j ∧ shown (TObj m') j) ∧ (unwritable G' → o = CMessage)
  | Gives (_, Some _, _) => o = CMessage
  | Crashes | Shares => False
  end.
Lemma gcall_sem fmt b s input j fs : float_format fmt → ready b s → Forall (fine_conf in_range) (pipe_confs b) →
  readable (c_string input) j → means j (TObj fs) →
  (deadly b fs ∧ ∀ f, c_process fmt f s input = Panic) ∨
  (¬ deadly b fs ∧ ∃ N s' o, (∀ f, (N ≤ f)%nat → c_process fmt f s input = Ok (s', o)) ∧
     (∀ f, c_process fmt f s input = Panic ∨ c_process fmt f s input = Ok (s', o)) ∧ ready b s' ∧ greplies b fs o).
Proof.
  intros Hf (pl & Hpl & Hp) Hc Hr Hm.
  destruct (decode_event_reads (cl_world s) _ _ _ Hr Hm) as (h & e & fp & Hde & Hev & Hfe & Hst).
  set (w := mkWorld h (w_events (cl_world s) ++ [e]) (w_env (cl_world s)) (w_log (cl_world s))) in *. set (i := length (w_events (cl_world s))) in *.
  assert (pipe_as (w_heap w) b pl) as Hp1. { eapply pipe_as_mono; [|exact Hp]. intros p t Hh. by eapply holds_stable. }
  assert (w_events w !! i = Some e) as Hi. { cbn [w w_events]. rewrite lookup_app_r by (unfold i; lia). unfold i. by rewrite Nat.sub_diag. }
  assert (showing w i fs fp) as Hs by (by exists e). assert (in_range (TObj fs)) as Hrg by (by eapply means_range).
  assert (∀ e, w_events w !! i = Some e → fields e ≠ None) as Hfe' by (intros; congruence).
  pose proof (gprocessed_text fmt b pl w i fs fp Hf Hp1 Hc Hs Hrg Hfe') as H. unfold c_process, deadly, greplies, ready. rewrite Hde, Hpl.
  destruct (gsem_pipe b (planted fs)) as [[[G' err] lg]| |]; [|left; split; [done|]; intros f; by rewrite H|done].
  destruct err as [err|].
  - right. split; [by intros []|]. destruct H as (w2 & HP & Hp2 & _). rewrite HP.
    exists O, (mkCLib w2 (Some pl)), CMessage. split_and!; [done|by right|by exists pl|done].
  - destruct H as (w2 & HP & Hp2 & _ & _ & H). rewrite HP. destruct H as [[Hci HPa]|(Hnc & N & r & Hr1 & Hr2 & Ht1 & Ht2)].
    + left. split; [done|]. intros f. by rewrite HPa.
    + right. split; [done|]. exists N, (mkCLib w2 (Some pl)), (match r with Some t => CText t | None => CMessage end). split_and!; [| |by exists pl| |].
      * intros f Hfu. rewrite (Hr1 f Hfu). by destruct r.
      * intros f. destruct (Hr2 f) as [->| ->]; [by left|right]. by destruct r.
      * intros m' Hw. destruct (Ht1 m' Hw) as (t & j' & -> & ? & _ & ?). by exists t, j'.
      * intros Hw. by rewrite (Ht2 Hw).
Qed.
(** What a text is: an event, null, or neither. *)
Lemma text_cases t : (∀ j, ¬ readable t j) ∨ document t JNull ∨ ∃ j fs, readable t j ∧ means j (TObj fs).
Proof.
  destruct (parse t) as [j|] eqn:Ep.
  2:{ left. intros j (Hd & _). apply parse_iff in Hd. congruence. }
  apply parse_iff in Ep. destruct (UnmarshalText emptyHeap newEvent t) as [[h e] [|]] eqn:Eu.
  - left. intros j' Hj. destruct (C53_reads emptyHeap newEvent _ _ Hj) as (? & ? & E & _). congruence.
  - right. unfold UnmarshalText, UnmarshalEvent in Eu. pose proof (proj2 (parse_iff _ _) Ep) as Ep'. rewrite Ep' in Eu. destruct (jdepth j <=? maxNestingDepth) eqn:El; [|done].
    assert (within 10000 j) as Hw by (apply within_iff; [lia|]; apply Z.leb_le in El; exact El).
    pose proof (document_valid _ _ Ep) as Hv. destruct j as [| | | | |m]; try done; [by left|right].
    destruct (fields_of_json m) as [ts|] eqn:Ef; [|done]. exists (JObj m), (mof_list ts).
    assert (means (JObj m) (TObj (mof_list ts))) as Hm by (by apply (means_obj m ts)).
    split; [|done]. split_and!; [done|done|]. right. by exists m, (mof_list ts).
Qed.
