(** * C55: what a pipeline of built-in processors does to an event, copies included.

    [gsem_pipe b G] (ShareSpec.v) is the specification: what the pipeline configured as
    [b] makes of an event that is [G], with the error and the counters incremented, in
    order; [G] says which fields share an array or object.  [drawn w i G fp] (ShareSem.v):
    in [w] event [i] is [G], its arrays and maps being among [fp]; the theorems
    [C55_start], [C55_fields] and [C55_get] say what that means for who sets fields and
    who reads them.  [pipe_as], [showing], [Process]: as in PipeSemProps.v. *)
From Verif Require Import ShareFacts PipelineRun PipeSem.
From Coq Require Import Lia.

Theorem C55_pipeline_semantics : ∀ b pl w i G fp,
  pipe_as (w_heap w) b pl → drawn w i G fp →
  match gsem_pipe b G with
  | Gives (G', err, counted) => ∃ w' fp',
      Process pl w (Some i) = Ok (w', match err with None => Some i | Some _ => None end, err) ∧
      drawn w' i G' fp' ∧ w_log w' = w_log w ++ counted ∧
      (* other events stay as they are, and apart *)
      (∀ j Gj fpj, j ≠ i → drawn w j Gj fpj → (∀ l, l ∈ fpj → l ∉ fp) →
         ∃ fpj', (∀ l, l ∈ fpj' → l ∈ fpj ∧ l ∉ fp') ∧ drawn w' j Gj fpj') ∧
      (* the pipeline keeps its configuration *)
      pipe_as (w_heap w') b pl
  | Crashes => Process pl w (Some i) = Panic
  | Shares => False
  end.
Proof.
  intros b pl w i G fp Hb Hd. pose proof (pipe_gsem b pl w (mkPEvent (Some i) false false) i G fp Hb eq_refl eq_refl Hd) as H.
  unfold Process. pose proof (gsem_pipe_shares b G) as Hns.
  destruct (gsem_pipe b G) as [[[G' err] lg]| |]; cbn [grun_to] in H; [|by rewrite H|done].
  destruct H as (w' & -> & Hm & Hlg). destruct Hm as ((fp' & Hsh & Hfp) & Hst & Hj & _).
  exists w', fp'. split; [by destruct err|]. split; [done|]. split; [done|]. split.
  - intros j Gj fpj Hne Hdj Hdis. destruct (drawn_alloc _ _ _ _ Hdj) as (fpj' & Hsub & Hdj'). exists fpj'. split.
    + intros l Hl. destruct (Hsub _ Hl) as [Hl1 Hl2]. split; [done|]. intros Hl'. destruct (Hfp _ Hl') as [?|?]; [by apply (Hdis l)|done].
    + eapply drawn_frame; [exact Hdj'|by apply Hj|exact Hst|]. intros l Hl. apply Hdis. by apply Hsub.
  - destruct Hb as [Hb1 Hb2]. split; (eapply Forall2_impl; [eassumption|]); intros; by eapply built_as_stable.
Qed.
Print Assumptions C55_pipeline_semantics.

(** An event without sharing, whose fields are [m], is [planted m]: one array or object for
    each of [m], none twice. *)
Theorem C55_start : ∀ w i m fp, showing w i m fp → drawn w i (planted m) fp.
Proof. exact showing_drawn. Qed.
Print Assumptions C55_start.
(** If [G] shows fields [m], these are the fields of the event in memory: [m], and nothing
    else.  ([rep_assoc h gm m fps]: the map [gm] holds, in heap [h], the fields [m].) *)
Theorem C55_fields : ∀ w i G fp e m, drawn w i G fp → w_events w !! i = Some e →
  shows G m ↔
  match fields e with
  | None => m = []
  | Some r => ∃ gm fps, hmaps (w_heap w) !! r = Some gm ∧ msorted gm ∧ rep_assoc (w_heap w) gm m fps
  end.
Proof. exact drawn_shows. Qed.
Print Assumptions C55_fields.
Theorem C55_shows_one : ∀ G m m', shows G m → shows G m' → m = m'.
Proof. exact shows_fun. Qed.
Print Assumptions C55_shows_one.
(** Get of a field finds what [G] has there: the same plain value, or an array or object
    that shows the same tree. *)
Theorem C55_get : ∀ w i G fp e key, drawn w i G fp → w_events w !! i = Some e →
  match gread key G with
  | Gives None => ∃ h', Get (w_heap w) e key = Ok (h', None)
  | Gives (Some x) => ∃ h' op, Get (w_heap w) e key = Ok (h', op) ∧ op ≠ None ∧
      ∀ t, unfolds (g_boxes G) x t → ∃ fps, rep h' op t fps
  | Crashes => Get (w_heap w) e key = Panic
  | Shares => False
  end.
Proof.
  intros w i G fp e key (e' & names & He' & Hs & _) He. assert (e' = e) as -> by congruence.
  pose proof (gread_ref _ _ _ _ key Hs) as H. destruct (gread key G) as [[x|]| |]; [| |exact H|exact H].
  - destruct H as (h' & op & HG & Hst & Hst' & Hne & Hx). exists h', op. split_and!; [done|done|]. intros t Ht.
    pose proof (state_frame _ _ _ _ _ Hs Hst Hst') as [Hp _]. by eapply unfolds_rep.
  - destruct H as (h' & op & HG & _ & _ & ->). by exists h'.
Qed.
Print Assumptions C55_get.

(** No crash, whatever the keys, on an event in which nothing is nil. *)
Definition nowhere_nil (G : graph) : Prop := Forall (λ b, match b with
  | BxArr None => True
  | BxArr (Some l) => Forall (λ x, x ≠ IPlain TNil ∧ x ≠ IPlain TNilObj) l
  | BxObj m => Forall (λ kv, kv.2 ≠ IPlain TNil ∧ kv.2 ≠ IPlain TNilObj) m
  end) (g_boxes G).
Theorem C55_no_crash_shared : ∀ b G,
  Forall (λ c, match c with BSet _ t => t ≠ TNil ∧ t ≠ TNilObj | _ => True end) (pipe_confs b) → nowhere_nil G →
  ∃ G' err counted, gsem_pipe b G = Gives (G', err, counted) ∧ nowhere_nil G'.
Proof.
  intros b G Hb HG. assert (∀ G, nowhere_nil G ↔ graph_ok not_nil G) as Hiff.
  { intros G0. assert (∀ x, item_ok not_nil x ↔ (x ≠ IPlain TNil ∧ x ≠ IPlain TNilObj)) as Hx.
    { intros [t| |]; [|by split|by split]. unfold item_ok, not_nil. split; intros [H1 H2]; split; congruence. }
    unfold nowhere_nil, graph_ok. apply Forall_iff. intros [[l|]|m]; cbn [box_ok]; [|done|]; apply Forall_iff; intros; by rewrite Hx. }
  rewrite Hiff in HG. pose proof (gsem_pipe_fine b Hb G HG) as H. pose proof (gsem_pipe_shares b G) as Hn.
  destruct (gsem_pipe b G) as [[[G' err] lg]| |]; [|done|done]. exists G', err, lg. split; [done|]. by apply Hiff.
Qed.
Print Assumptions C55_no_crash_shared.

(** Where nothing was copied, this is the same as the specification without sharing. *)
Theorem C55_specifications_agree : ∀ b pl w i m fp,
  pipe_as (w_heap w) b pl → showing w i m fp →
  match sem_pipe b m with
  | Gives (m', err, counted) => ∃ G', gsem_pipe b (planted m) = Gives (G', err, counted) ∧ shows G' m'
  | Crashes => gsem_pipe b (planted m) = Crashes
  | Shares => True
  end.
Proof.
  intros b pl w i m fp Hb Hs. pose proof (showing_drawn _ _ _ _ Hs) as Hd.
  pose proof (pipe_sem b pl w (mkPEvent (Some i) false false) i m fp Hb eq_refl eq_refl Hs) as H1.
  pose proof (pipe_gsem b pl w (mkPEvent (Some i) false false) i _ fp Hb eq_refl eq_refl Hd) as H2.
  pose proof (gsem_pipe_shares b (planted m)) as Hns.
  destruct (sem_pipe b m) as [[[m' err] lg]| |]; cbn [grun_to] in H1; [| |done].
  - destruct H1 as (w1 & E1 & ((fp1 & (e & He & Hev) & _) & _) & Hlg1).
    destruct (gsem_pipe b (planted m)) as [[[G' err'] lg']| |]; cbn [grun_to] in H2; [|congruence|done].
    destruct H2 as (w2 & E2 & ((fp2 & Hd2 & _) & _) & Hlg2). rewrite E2 in E1. injection E1 as -> ->.
    assert (lg' = lg) as ->. { apply (app_inv_head (w_log w)). congruence. }
    exists G'. split; [done|]. apply (drawn_shows _ _ _ _ _ _ Hd2 He). by eapply ev_rep_like.
  - destruct (gsem_pipe b (planted m)) as [[[G' err'] lg']| |]; cbn [grun_to] in H2; [|done|done].
    destruct H2 as (w2 & E2 & _). congruence.
Qed.
Print Assumptions C55_specifications_agree.

(** An example: the array is copied, then extended: both fields show it longer. *)
Definition sh_b : bpipe := mkBPipe
  [BProc "p.0" false false [] (BCopy "a" "b.c"); BProc "p.1" false false [] (BAppend "a" "x")] [].
Definition sh_pl : pipeline := mkPipeline "p"
  [PProc "p.0" "" false false [] (set_process (mkSet "a" "b.c" 0)); PProc "p.1" "" false false [] (append_process (mkAppend "a" "x"))] [].
Definition sh_h : heap := mkHeap [mkNull; mkArray [Some 2]; mkBool true] [[("a", Some 1)]].
Definition sh_w : world := mkWorld sh_h [mkEvent (Some 0)] [] [].
Example C55_shared_ex : pipe_as (w_heap sh_w) sh_b sh_pl ∧ showing sh_w 0 [("a", TArr [TBool true])] [LMap 0; LArr 1] ∧
  ∃ G', gsem_pipe sh_b (planted [("a", TArr [TBool true])]) = Gives (G', None, [("p.0", MIn); ("p.0", MOut); ("p.1", MIn); ("p.1", MOut)]) ∧
    shows G' [("a", TArr [TBool true; TStr "x"]); ("b", TObj [("c", TArr [TBool true; TStr "x"])])].
Proof.
  assert (holds (w_heap sh_w) 0 TNull) as Hh by (by exists mkNull).
  split_and!.
  - split; [|constructor]. unfold sh_b, sh_pl. cbn [bp_processors pl_processors].
    repeat (apply Forall2_cons; split); [| |apply Forall2_nil_2]; (constructor; [|apply Forall2_nil_2]); [by eapply ra_copy|constructor].
  - exists (mkEvent (Some 0)). split; [done|]. exists [("a", Some 1)], [LArr 1]. split_and!; [done|by repeat constructor| |done|].
    + apply (rep_assoc_cons _ "a" (Some 1) [] (TArr [TBool true]) [] [LArr 1] []); [|constructor].
      eapply (rep_arr _ 1 (mkArray [Some 2]) [Some 2] [TBool true] []); [done|done|done|done|].
      apply (rep_list_cons _ (Some 2) [] (TBool true) [] [] []); [|constructor]. by eapply rep_scalar.
    + apply NoDup_cons_2; [|apply NoDup_singleton]. intros H. by apply elem_of_list_singleton in H.
  - eexists. split; [vm_compute; reflexivity|]. unfold shows. cbn [g_root].
    eapply un_obj; [reflexivity|]. apply Forall2_cons. split; [split; [reflexivity|]|apply Forall2_cons; split; [split; [reflexivity|]|constructor]].
    + eapply un_arr; [reflexivity|]. repeat constructor.
    + eapply un_obj; [reflexivity|]. apply Forall2_cons. split; [split; [reflexivity|]|constructor]. eapply un_arr; [reflexivity|]. repeat constructor.
Qed.
(** Copying an object into itself: it then shows nothing finite. *)
Example C55_circle_ex : ∃ G', gsem_pipe (mkBPipe [BProc "p.0" false false [] (BCopy "a" "a.b")] []) (planted [("a", TObj [])]) =
    Gives (G', None, [("p.0", MIn); ("p.0", MOut)]) ∧ ∀ m, ¬ shows G' m.
Proof.
  eexists. split; [vm_compute; reflexivity|]. intros m H. inversion H as [| | |? xs ? Hb Hm]; subst. cbn in Hb. injection Hb as <-.
  inversion Hm as [|? [k t] ? ? [_ Ht] _]; subst. cbn in Ht. clear -Ht.
  match type of Ht with unfolds ?bs _ _ => cut (∀ x t, unfolds bs x t → x ≠ IObj 1); [by intros H; apply (H _ _ Ht)|clear Ht] end.
  refine (unfolds_ind' _ (λ x t, x ≠ IObj 1) _ _ _ _); [done|done|done|]. intros n m m' Hn _ IH [= ->]. cbn in Hn. injection Hn as <-.
  inversion IH as [|? ? ? ? [_ Hx] _]; subst. by apply Hx.
Qed.
