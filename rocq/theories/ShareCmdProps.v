(** * C56, C57: the sawmill command from bytes to bytes, copies included; from the
    definition of a pipeline to what it does.

    [gsem_pipe b G]: what the pipeline configured as [b] does to an event that is [G]
    (ShareSpec.v); [planted m]: the event with fields [m] that shares nothing.
    [writable_as G m], [unwritable G], [circular G] (ShareTextSpec.v): json.Marshal of the
    event writes the fields [m]; fails; never ends.  Otherwise as in CmdSemProps.v and
    BuiltinsProps.v. *)
From Verif Require Import ShareCmd CmdProps ShareProps BuiltinsProps.
From Coq Require Import Lia.
Local Open Scope Z_scope.

(** Marshal ends in exactly one of three ways. *)
Theorem C56_three_ways : ∀ G, ((∃ m, writable_as G m) ∨ unwritable G ∨ circular G) ∧
  (∀ m, writable_as G m → ¬ unwritable G ∧ ¬ circular G ∧ ∀ m', writable_as G m' → m' = m) ∧ (unwritable G → ¬ circular G).
Proof.
  intros G. split_and!; [apply graph_ways| |].
  - intros m H. split_and!; [by eapply writable_not_unwritable| |].
    + intros Hc. destruct (writable_ends _ _ H) as (N & HN). pose proof (circular_ends _ Hc N). rewrite HN in * by lia. done.
    + intros m' H'. eapply shows_fun; [apply H'|apply H].
  - intros H Hc. destruct (unwritable_ends _ H) as (N & HN). pose proof (circular_ends _ Hc N). rewrite HN in * by lia. done.
Qed.
Print Assumptions C56_three_ways.
(** And these are what happens to an event in memory. *)
Theorem C56_marshal : ∀ fmt w i G fp e, float_format fmt → drawn w i G fp → w_events w !! i = Some e → fields e ≠ None →
  (∀ m, writable_as G m → in_range (TObj m) →
     ∃ N text j, (∀ f, (N ≤ f)%nat → MarshalText fmt f (w_heap w) e = Ok (Some text)) ∧ document text j ∧ shown (TObj m) j) ∧
  (unwritable G → ∃ N, ∀ f, (N ≤ f)%nat → MarshalText fmt f (w_heap w) e = Ok None) ∧
  (circular G → ∀ f, MarshalText fmt f (w_heap w) e = Panic).
Proof.
  intros fmt w i G fp e Hf (e' & names & He' & Hs & _) He Hfe. assert (e' = e) as -> by congruence. split_and!.
  - intros m Hw Hr. destruct (writable_ends _ _ Hw) as (N & HN).
    destruct (MarshalText_walk fmt N _ _ _ _ Hs Hfe) as [_ Hj]. destruct (Hj _ (HN N ltac:(lia))) as (j & Ej).
    destruct (tree_text fmt m j Hf Hr (proj2 Hw) Ej) as (D1 & _ & D3). exists N, (render j), (jfix j). split_and!; try done.
    intros f Hfu. destruct (MarshalText_walk fmt f _ _ _ _ Hs Hfe) as [-> _]. by rewrite (HN f Hfu), Ej.
  - intros Hu. destruct (unwritable_ends _ Hu) as (N & HN). exists N. intros f Hfu.
    destruct (MarshalText_walk fmt f _ _ _ _ Hs Hfe) as [-> _]. by rewrite (HN f Hfu).
  - intros Hc f. destruct (MarshalText_walk fmt f _ _ _ _ Hs Hfe) as [-> _]. by rewrite circular_ends.
Qed.
Print Assumptions C56_marshal.

(** The event made of the n-th line, and what becomes of it. *)
Definition of_line (b : bpipe) (x : Z * list ascii) :=
  gsem_pipe b (planted [("@metadata", TObj [("line_number", TUint x.1)]); ("event", TObj [("original", TStr (string_of_list_ascii x.2))])]).
(** A line that is not blank, the n-th, makes an event with its number and its text, and
    the output is the JSON of what the pipeline makes of it; if the pipeline fails or
    the result cannot be written as JSON, its number is reported instead.  But if some
    line becomes an event that contains itself, the command dies. *)
Theorem C56_command : ∀ fmt b pl w bytes readerr ls,
  float_format fmt → pipe_as (w_heap w) b pl →
  Forall (λ c, match c with BSet _ t => in_range t | _ => True end) (pipe_confs b) →
  text_lines bytes ls →
  (* 1. *)
  ((∀ x G' counted, x ∈ numbered (upto_long ls) → of_line b x = Gives (G', None, counted) → ¬ circular G') →
   ∃ N s err os, (∀ f, (N ≤ f)%nat → processInput fmt f pl w None bytes readerr = Ok (s, err)) ∧
    Forall2 (λ x o,
      match of_line b x with
      | Gives (G', None, _) =>
          (∀ m', writable_as G' m' → ∃ text j, o = Some text ∧ document text j ∧ shown (TObj m') j) ∧
          (unwritable G' → o = None)
      | Gives (_, Some _, _) => o = None
      | Crashes | Shares => False
      end) (numbered (upto_long ls)) os ∧
    io_out s = concat (map (λ o, match o with Some t => t ++ [nl] | None => [] end) os) ∧
    io_reported s = (filter (λ x, x.2 = None) (zip (numbered (upto_long ls)) os)).*1.*1 ∧
    (err = true ↔ readerr = true ∨ Exists (λ l, 65536 ≤ Z.of_nat (length l)) ls) ∧
    w_log (io_world s) = w_log w ++ concat (map (λ x,
      match of_line b x with Gives (_, _, counted) => counted | _ => [] end) (numbered (upto_long ls)))) ∧
  (* 2. *)
  (∀ x G' counted, x ∈ numbered (upto_long ls) → of_line b x = Gives (G', None, counted) → circular G' →
   ∀ f, processInput fmt f pl w None bytes readerr = Panic).
Proof.
  intros fmt b pl w bytes readerr ls Hf Hp Hc Hls.
  assert (∀ n l, numbered_from n (map dropCR l) = numbered_from n l) as Hd.
  { intros n l. revert n. induction l as [|x l IH]; intros n; [done|]. cbn [map numbered_from].
    rewrite trim_dropCR. destruct (trim x); by rewrite IH. }
  assert (∀ x, gline b x = of_line b x) as Hof by done.
  pose proof (glines_sem fmt b pl (map dropCR (upto_long ls)) Hf Hc (start w) 0 ltac:(lia) Hp eq_refl eq_refl) as H.
  rewrite Hd, numbered_eq in H. split.
  - intros Hnk. destruct H as [[Hk _]|(_ & N & s & os & H1 & H2 & H3 & H4 & H5)].
    { exfalso. apply Exists_exists in Hk as (x & Hx & Hk). unfold kills in Hk. rewrite Hof in Hk. destruct (of_line b x) as [[[G' [e|]] lg]| |] eqn:E; try done.
      by apply (Hnk x G' lg). }
    exists N, s, (bool_decide (Exists (λ l, maxLine ≤ Z.of_nat (length l)) ls) || readerr), os. split_and!; try done.
    + intros f Hfu. unfold processInput. rewrite (scan_lines _ _ Hls). fold (start w). by rewrite (H1 f Hfu).
    + eapply Forall2_impl; [exact H2|]. intros x o Hg. unfold gline_gives in Hg. rewrite Hof in Hg. destruct (of_line b x) as [[[G' [e|]] lg]| |]; try done.
      destruct Hg as [Hg1 Hg2]. split; [|done]. intros m' Hw. destruct (Hg1 m' Hw) as (text & j & ? & ? & _ & ?). eauto.
    + rewrite orb_true_iff, bool_decide_eq_true. unfold maxLine. tauto.
  - intros x G' counted Hx E Hci f. destruct H as [[_ HP]|[Hn _]].
    + unfold processInput. rewrite (scan_lines _ _ Hls). fold (start w). by rewrite HP.
    + destruct Hn. apply Exists_exists. exists x. split; [done|]. unfold kills. by rewrite Hof, E.
Qed.
Print Assumptions C56_command.
(** Without copy_from no line does so. *)
Theorem C56_no_circle : ∀ b pl h x, pipe_as h b pl → Forall (λ c, match c with BCopy _ _ => False | _ => True end) (pipe_confs b) →
  ∀ G' err counted, of_line b x = Gives (G', err, counted) → (∃ m', shows G' m') ∧ ¬ circular G'.
Proof.
  intros b pl h [n line] Hp Hb G' err counted E. unfold of_line in E. cbn [fst snd] in E.
  destruct (line_run h n line) as (h1 & e & outs & fp & Hrun & Hev).
  assert (pipe_as h1 b pl) as Hp1. { eapply pipe_as_mono; [|exact Hp]. intros p t. apply vals_holds. by eapply line_run_vals. }
  pose proof (C55_specifications_agree b pl (mkWorld h1 [e] [] []) 0 (line_fields n line) fp Hp1) as H.
  pose proof (sem_pipe_shares b Hb (line_fields n line)) as Hns. unfold line_fields in *. rewrite E in H.
  destruct (sem_pipe b _) as [[[m' err'] lg]| |]; [|by discriminate H; exists e|done].
  destruct H as (G2 & [= <- <- <-] & Hs); [by exists e|]. split; [by exists m'|]. intros Hc.
  unfold shows, circular in *. destruct (g_root G') as [k|]; [|done]. destruct (unfolds_ends _ _ _ Hs) as (r & N & HN).
  specialize (HN N (Nat.le_refl _)). by rewrite (gwalk_endless _ _ Hc) in HN.
Qed.
Print Assumptions C56_no_circle.

(** An example: [event] copied into itself kills the command whatever the line; copied
    elsewhere, it is written twice. *)
Definition copy_b (to : string) : bpipe := mkBPipe [BProc "p" false false [] (BCopy "event" to)] [].
Definition copy_pl (to : string) : pipeline := mkPipeline "p" [PProc "p" "" false false [] (set_process (mkSet "event" to 0))] [].
Definition copy_w : world := mkWorld (mkHeap [mkNull] []) [] [] [].
Example C56_ex_copy :
  (∀ to, pipe_as (w_heap copy_w) (copy_b to) (copy_pl to)) ∧
  (∀ n line, ∃ G' counted, of_line (copy_b "event.copy") (n, line) = Gives (G', None, counted) ∧ circular G') ∧
  (∀ n line, ∃ G' counted, of_line (copy_b "also") (n, line) = Gives (G', None, counted) ∧
     writable_as G' [("@metadata", TObj [("line_number", TUint n)]); ("also", TObj [("original", TStr (string_of_list_ascii line))]);
                     ("event", TObj [("original", TStr (string_of_list_ascii line))])]) ∧
  match processInput exact_decimal 9 (copy_pl "also") copy_w None (list_ascii_of_string "hi") false with
  | Ok (s, err) => io_out s = list_ascii_of_string "{""@metadata"":{""line_number"":1},""also"":{""original"":""hi""},""event"":{""original"":""hi""}}" ++ [nl]
  | Panic => False
  end ∧
  processInput exact_decimal 9 (copy_pl "event.copy") copy_w None (list_ascii_of_string "hi") false = Panic.
Proof.
  split_and!.
  - intros to. split; [|constructor]. apply Forall2_cons. split; [|constructor]. constructor; [|constructor]. eapply ra_copy; [by exists mkNull|done].
  - intros n line. eexists _, _. split; [vm_compute; reflexivity|]. unfold circular. cbn [g_root g_boxes].
    match goal with |- endless ?bs _ => set (boxes := bs) end.
    assert (∀ x t, unfolds boxes x t → x ≠ IObj 2) as Hno.
    { refine (unfolds_ind' _ (λ x t, x ≠ IObj 2) _ _ _ _); [done|done|done|]. intros k m m' Hk _ IH [= ->]. cbn in Hk. injection Hk as <-.
      inversion IH as [|? ? ? ? [_ Hx] _]; subst. by apply Hx. }
    assert (∀ t, ¬ unfolds boxes (IObj 0) t) as Hno0.
    { intros t H. inversion H as [| | |? xs ? Hb Hm]; subst. cbn in Hb. injection Hb as <-.
      inversion Hm as [|? ? ? ? _ Hm2]; subst. inversion Hm2 as [|? ? ? ? [_ Ht] _]; subst. by apply Hno in Ht. }
    split; [intros t [H _]; by apply Hno0 in H|]. intros H.
    assert (∀ x, refused boxes x → match x with IPlain (TStr _) | IPlain (TUint _) => False | IObj k => (k < 3)%nat → False | _ => True end) as Hrf.
    { clear H. induction 1 as [t Hn Ht|x t Hu Hn Hd|k l1 x l2 Hk _ _ IH|k m1 key x m2 Hk _ _ IH].
      - by destruct t.
      - destruct x as [t'| |k]; [by inversion Hu; subst; destruct t|done|]. intros Hk.
        destruct k as [|[|[|k]]]; [by apply Hno0 in Hu| |by apply Hno in Hu|lia].
        inversion Hu as [| | |? xs ? Hb Hm]; subst. cbn in Hb. injection Hb as <-.
        inversion Hm as [|? [k1 t1] ? ? [_ Ht] Hm1]; subst. inversion Hm1; subst. cbn in Ht. inversion Ht; subst. cbn in Hd. lia.
      - done.
      - intros Hlt. destruct k as [|[|[|k]]]; [| | |lia]; cbn in Hk; destruct m1 as [|? [|? [|? ?]]]; simplify_eq/=; auto; try (apply IH; lia). }
    apply (Hrf _ H). lia.
  - intros n line. eexists _, _. split; [vm_compute; reflexivity|]. split.
    + unfold shows. cbn [g_root]. eapply un_obj; [reflexivity|].
      repeat (apply Forall2_cons; split; [split; [reflexivity|eapply un_obj; [reflexivity|]]|]); [..|constructor];
        (apply Forall2_cons; split; [split; [reflexivity|by constructor]|constructor]).
    + split; [|cbn; lia]. cbn. tauto.
  - vm_compute. reflexivity.
  - vm_compute. reflexivity.
Qed.

(** ** C57: what a pipeline does can be read off its definition. *)
Theorem C57_definition_semantics : ∀ lo up (CfgMap : Type) (emptyCfg : CfgMap) unpack names r c pl b w i G fp,
  imports lo up names r → unpacks unpack (w_heap w) →
  New emptyCfg unpack r c = Ok (inl pl) → defines lo up emptyCfg unpack names (w_heap w) c b →
  drawn w i G fp →
  match gsem_pipe b G with
  | Gives (G', err, counted) => ∃ w' fp',
      Process pl w (Some i) = Ok (w', match err with None => Some i | Some _ => None end, err) ∧
      drawn w' i G' fp' ∧ w_log w' = w_log w ++ counted
  | Crashes => Process pl w (Some i) = Panic
  | Shares => False
  end.
Proof.
  intros lo up CfgMap emptyCfg unpack names r c pl b w i G fp Him Hu Hn Hd Hs.
  destruct (C57_new_builds_what_is_defined lo up CfgMap emptyCfg unpack names r (w_heap w) c Him Hu) as [_ H]. destruct (H b Hd) as (pl' & Hn' & Hb).
  assert (pl' = pl) as -> by congruence. pose proof (C55_pipeline_semantics b pl w i G fp Hb Hs) as Hp.
  destruct (gsem_pipe b G) as [[[G' err] lg]| |]; [|done|done]. destruct Hp as (w' & fp' & H1 & H2 & H3 & _). eauto.
Qed.
Print Assumptions C57_definition_semantics.
