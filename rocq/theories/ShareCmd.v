(** * The JSON text of an event that may share, and the sawmill command: proofs. *)
From Verif Require Export ShareText CmdSem CLib.
From Verif Require Import JsonProps JsonGrammarProps.
From Coq Require Import Lia.
Local Open Scope Z_scope.

(** ** Ranges *)
Lemma range_tall t : in_range t → tall in_range t.
Proof.
  induction t as [| | | | | | | | |l IH| |m IH] using tree_ind'; try done.
  - rewrite in_range_arr. intros H. cbn [tall]. induction H as [|t l Ht _ IHl]; [done|]. apply Forall_cons in IH as [Hi IH].
    cbn [fold_right]. split; [by apply Hi|by apply IHl].
  - rewrite in_range_obj. intros H. cbn [tall]. induction H as [|[k t] l Ht _ IHl]; [done|]. apply Forall_cons in IH as [Hi IH].
    cbn [fold_right]. split; [by apply Hi|by apply IHl].
Qed.
Lemma unfolds_range bs x t : Forall (box_ok in_range) bs → unfolds bs x t → item_ok in_range x → in_range t.
Proof.
  intros Hb. revert x t. refine (unfolds_ind' bs (λ x t, item_ok in_range x → in_range t) _ _ _ _).
  - done.
  - done.
  - intros n l ts Hn _ IH _. rewrite Forall_lookup in Hb. specialize (Hb _ _ Hn). cbn [box_ok] in Hb. apply in_range_arr.
    clear Hn. induction IH as [|x t l ts Hx _ IH]; [constructor|]. apply Forall_cons in Hb as [H1 H2]. constructor; [by apply Hx|by apply IH].
  - intros n m m' Hn _ IH _. rewrite Forall_lookup in Hb. specialize (Hb _ _ Hn). cbn [box_ok] in Hb. apply in_range_obj.
    clear Hn. induction IH as [|x t l ts [_ Hx] _ IH]; [constructor|]. apply Forall_cons in Hb as [H1 H2]. constructor; [by apply Hx|by apply IH].
Qed.
Lemma shows_range G m : graph_ok in_range G → shows G m → in_range (TObj m).
Proof.
  unfold graph_ok, shows. intros HG. destruct (g_root G); [|by intros ->]. intros H. by eapply unfolds_range.
Qed.

(** ** The text of an event *)
Lemma tree_text fmt m j : float_format fmt → in_range (TObj m) → jsonable_tree (TObj m) → json_of_tree fmt (TObj m) = Some j →
  document (render j) (jfix j) ∧ within 10000 (jfix j) ∧ shown (TObj m) (jfix j).
Proof.
  intros Hf Hr [_ Hd] Ej. pose proof (jwf_of_tree fmt (TObj m) Hf j Ej) as Hw. split_and!.
  - apply parse_iff. by apply parse_render.
  - apply within_iff; [lia|]. rewrite jdepth_jfix, (json_of_tree_depth fmt _ _ Ej). exact Hd.
  - by apply (shown_tree fmt).
Qed.
(** The three ways, and only these. *)
Lemma graph_ways G : (∃ m, writable_as G m) ∨ unwritable G ∨ circular G.
Proof.
  unfold writable_as, unwritable, circular, shows. destruct (g_root G) as [n|].
  - destruct (three_ways (g_boxes G) (IObj n)) as [(t & Hu & Hj)|H]; [|by right]. left. inversion Hu as [| | |? ? m' Hb Hm]; subst. by exists m'.
  - left. exists []. split; [done|]. split; [intros H; exact H|cbn; lia].
Qed.
Lemma writable_ends G m : writable_as G m → ∃ N, ∀ f, (N ≤ f)%nat → root_walk f G = Ok (Some (TObj m)).
Proof.
  unfold writable_as, shows, root_walk. intros [Hs Hj]. destruct (g_root G) as [n|].
  - destruct (gwalk_writes _ _ _ (conj Hs Hj)) as (N & H). exists N. intros f Hf. apply H. lia.
  - subst. by exists O.
Qed.
Lemma unwritable_ends G : unwritable G → ∃ N, ∀ f, (N ≤ f)%nat → root_walk f G = Ok None.
Proof.
  unfold unwritable, root_walk. intros H. destruct (g_root G) as [n|]; [|done]. destruct (gwalk_refused _ _ H) as (N & HN). exists N. intros f Hf. apply HN. lia.
Qed.
Lemma circular_ends G : circular G → ∀ f, root_walk f G = Panic.
Proof. unfold circular, root_walk. intros H f. destruct (g_root G) as [n|]; [|done]. by apply gwalk_endless. Qed.
Lemma writable_not_unwritable G m : writable_as G m → ¬ unwritable G.
Proof.
  intros H1 H2. destruct (writable_ends _ _ H1) as (N1 & E1). destruct (unwritable_ends _ H2) as (N2 & E2).
  specialize (E1 (N1 `max` N2)%nat ltac:(lia)). specialize (E2 (N1 `max` N2)%nat ltac:(lia)). congruence.
Qed.
Lemma root_walk_mono G f g r : (f ≤ g)%nat → root_walk f G = Ok r → root_walk g G = Ok r.
Proof. unfold root_walk. destruct (g_root G); [|done]. intros Hl. apply gwalk_mono. lia. Qed.
Lemma MarshalText_walk fmt f h e G names : state h e G names → fields e ≠ None →
  MarshalText fmt f h e = match root_walk f G with
    | Panic => Panic | Ok None => Ok None
    | Ok (Some t) => match json_of_tree fmt t with Some j => Ok (Some (render j)) | None => Panic end
    end ∧ (∀ t, root_walk f G = Ok (Some t) → ∃ j, json_of_tree fmt t = Some j).
Proof.
  intros Hs Hf. pose proof (MarshalEvent_walk fmt f h e G names Hs Hf) as H. unfold MarshalText. destruct (root_walk f G) as [[t|]|]; cbn [encoded] in H.
  - destruct H as (j & -> & Hj). rewrite Hj. split; [done|]. intros t' [= <-]. eauto.
  - by rewrite H.
  - by rewrite H.
Qed.
(** What a result [o] of writing [G] has to be, if it is no crash. *)
Definition text_of (G : graph) (o : option (list ascii)) : Prop :=
  (∀ m, writable_as G m → ∃ text j, o = Some text ∧ document text j ∧ within 10000 j ∧ shown (TObj m) j) ∧ (unwritable G → o = None).
Lemma graph_text fmt h e G names : float_format fmt → state h e G names → fields e ≠ None → graph_ok in_range G →
  (circular G ∧ ∀ f, MarshalText fmt f h e = Panic) ∨
  (¬ circular G ∧ ∃ N o, (∀ f, (N ≤ f)%nat → MarshalText fmt f h e = Ok o) ∧ (∀ f, MarshalText fmt f h e = Panic ∨ MarshalText fmt f h e = Ok o) ∧ text_of G o).
Proof.
  intros Hf Hs Hfe HG.
  assert (∀ N r, (∀ f, (N ≤ f)%nat → root_walk f G = Ok r) → ∀ f, root_walk f G = Panic ∨ root_walk f G = Ok r) as Hstab.
  { intros N r H f. destruct (root_walk f G) as [r'|] eqn:E; [right|by left]. pose proof (root_walk_mono G f (f `max` N)%nat r' ltac:(lia) E) as H1.
    rewrite H in H1 by lia. congruence. }
  destruct (graph_ways G) as [(m & Hw)|[Hu|Hc]].
  - right. destruct (writable_ends _ _ Hw) as (N & HN). pose proof (Hstab _ _ HN) as Hst.
    destruct (MarshalText_walk fmt N h e G names Hs Hfe) as [_ Hj]. destruct (Hj _ (HN N ltac:(lia))) as (j & Ej). clear Hj.
    split. { intros Hc. pose proof (circular_ends _ Hc N) as H. rewrite HN in H by lia. done. }
    exists N, (Some (render j)). split_and!.
    + intros f Hfu. destruct (MarshalText_walk fmt f h e G names Hs Hfe) as [-> _]. by rewrite (HN f Hfu), Ej.
    + intros f. destruct (MarshalText_walk fmt f h e G names Hs Hfe) as [-> _]. destruct (Hst f) as [->| ->]; [by left|right]. by rewrite Ej.
    + split; [|intros Hu; by destruct (writable_not_unwritable _ _ Hw)]. intros m' Hw'.
      assert (m' = m) as -> by (eapply shows_fun; [apply Hw'|apply Hw]).
      destruct Hw as [Hsh Hjs]. destruct (tree_text fmt m j Hf (shows_range _ _ HG Hsh) Hjs Ej) as (D1 & D2 & D3).
      by exists (render j), (jfix j).
  - right. destruct (unwritable_ends _ Hu) as (N & HN). pose proof (Hstab _ _ HN) as Hst.
    split. { intros Hc. pose proof (circular_ends _ Hc N) as H. rewrite HN in H by lia. done. }
    exists N, None. split_and!.
    + intros f Hfu. destruct (MarshalText_walk fmt f h e G names Hs Hfe) as [-> _]. by rewrite (HN f Hfu).
    + intros f. destruct (MarshalText_walk fmt f h e G names Hs Hfe) as [-> _]. destruct (Hst f) as [->| ->]; [by left|by right].
    + split; [|done]. intros m Hw. by destruct (writable_not_unwritable _ _ Hw).
  - left. split; [done|]. intros f. destruct (MarshalText_walk fmt f h e G names Hs Hfe) as [-> _]. by rewrite circular_ends.
Qed.

(** ** One line *)
Definition gline (b : bpipe) (x : Z * list ascii) := gsem_pipe b (planted (line_fields x.1 x.2)).
Definition gline_gives (b : bpipe) (x : Z * list ascii) (o : option (list ascii)) : Prop :=
  match gline b x with
  | Gives (G', None, _) => text_of G' o
  | Gives (_, Some _, _) => o = None
  | Crashes | Shares => False
  end.
Definition kills (b : bpipe) (x : Z * list ascii) : Prop :=
  match gline b x with Gives (G', None, _) => circular G' | _ => False end.
Definition gline_counts (b : bpipe) (x : Z * list ascii) : list (string * metric) :=
  match gline b x with Gives (_, _, counted) => counted | _ => [] end.
Lemma line_no_nil n line : graph_ok not_nil (planted (line_fields n line)).
Proof.
  assert (∀ t, not_nil t ↔ t ≠ TNil ∧ t ≠ TNilObj) as Hn by done.
  repeat (constructor; try done).
Qed.
Lemma gline_sem fmt b pl s n line : float_format fmt → pipe_as (w_heap (io_world s)) b pl →
  Forall (fine_conf in_range) (pipe_confs b) → 0 ≤ n < 2 ^ 64 → io_writes s = None → io_failed s = false →
  (kills b (n, line) ∧ ∀ f, process_line fmt f pl s n line = Panic) ∨
  (¬ kills b (n, line) ∧ ∃ N s' o, (∀ f, (N ≤ f)%nat → process_line fmt f pl s n line = Ok s') ∧
    (∀ f, process_line fmt f pl s n line = Panic ∨ process_line fmt f pl s n line = Ok s') ∧
    gline_gives b (n, line) o ∧ pipe_as (w_heap (io_world s')) b pl ∧
    io_out s' = io_out s ++ printed [o] ∧ io_reported s' = io_reported s ++ unprinted [(n, line)] [o] ∧
    io_writes s' = None ∧ io_failed s' = false ∧
    w_log (io_world s') = w_log (io_world s) ++ gline_counts b (n, line)).
Proof.
  intros Hf Hp Hc Hn Hw Hfl. unfold kills, gline_gives, gline_counts, gline. cbn [fst snd].
  destruct (line_run (w_heap (io_world s)) n line) as (h & e & outs & fp & Hrun & Hev).
  set (i := length (w_events (io_world s))).
  set (w1 := mkWorld h (w_events (io_world s) ++ [e]) (w_env (io_world s)) (w_log (io_world s))).
  assert (pipe_as (w_heap w1) b pl) as Hp1.
  { eapply pipe_as_mono; [|exact Hp]. intros p t. apply vals_holds. by eapply line_run_vals. }
  assert (w_events w1 !! i = Some e) as Hi. { cbn [w1 w_events]. rewrite lookup_app_r by (unfold i; lia). by rewrite Nat.sub_diag. }
  assert (showing w1 i (line_fields n line) fp) as Hs1 by (by exists e).
  assert (fields e ≠ None) as Hfe. { intros E. unfold ev_rep in Hev. rewrite E in Hev. by destruct Hev. }
  assert (Forall (fine_conf not_nil) (pipe_confs b)) as Hnn.
  { pose proof (pipe_as_clean _ _ _ Hp) as Hcl. eapply Forall_impl; [exact Hcl|]. intros [] Hx; try done. cbn [fine_conf] in *.
    split; intros ->; exact Hx. }
  pose proof (gsem_pipe_fine b Hnn _ (line_no_nil n line)) as Hk.
  assert (graph_ok in_range (planted (line_fields n line))) as Hrg.
  { apply planted_ok, range_tall. by destruct (line_presentable n line Hn) as (_ & _ & ?). }
  pose proof (gsem_pipe_ok in_range ltac:(done) b Hc _ Hrg) as Hrk. clear Hrg.
  pose proof (gsem_pipe_shares b (planted (line_fields n line))) as Hns.
  pose proof (pipe_gsem b pl w1 (mkPEvent (Some i) false false) i _ fp Hp1 eq_refl eq_refl (showing_drawn _ _ _ _ Hs1)) as H.
  destruct (gsem_pipe b (planted (line_fields n line))) as [[[G' err] lg]| |]; [|done|done]. cbn [grun_to fineC] in H, Hk, Hrk. clear Hns Hk.
  destruct H as (w2 & Hpl & Hm & Hlg). pose proof Hm as ((fp' & (e' & names & Hi' & Hst' & _) & _) & Hst & _).
  assert (pipe_as (w_heap w2) b pl) as Hp2.
  { eapply pipe_as_mono; [|exact Hp1]. intros p t Hh. by eapply holds_stable. }
  assert (w_log w2 = w_log (io_world s) ++ lg) as Hlg2 by done.
  assert (fields e' ≠ None) as Hfe'.
  { assert (∃ r, Process pl w1 (Some i) = Ok (w2, r, err)) as (r & HP) by (unfold Process; rewrite Hpl; destruct err; eauto).
    destruct (Process_keeps _ _ _ _ _ _ HP i e Hi Hfe) as (e2 & He2 & Hfe2). congruence. }
  destruct err as [err|].
  - right. split; [by intros []|]. exists O, (report s w2 n), None.
    assert (∀ f, process_line fmt f pl s n line = Ok (report s w2 n)) as Hall.
    { intros f. unfold process_line. rewrite Hrun. fold w1 i. unfold Process. by rewrite Hpl. }
    split_and!; try done; [by right|by rewrite app_nil_r].
  - assert (∀ f, process_line fmt f pl s n line = match MarshalText fmt f (w_heap w2) e' with
        | Panic => Panic | Ok None => Ok (report s w2 n) | Ok (Some t) => Ok (write s w2 n (t ++ [nl])) end) as Hall.
    { intros f. unfold process_line. rewrite Hrun. fold w1 i. unfold Process. rewrite Hpl. cbn [pe_dropped pe_data]. by rewrite Hfl, Hi'. }
    destruct (graph_text fmt _ _ _ _ Hf Hst' Hfe' Hrk) as [[Hci HPa]|(Hnc & N & r & Hr & Hr' & Ht)].
    + left. split; [done|]. intros f. by rewrite Hall, HPa.
    + right. split; [done|]. exists N, (match r with Some t => write s w2 n (t ++ [nl]) | None => report s w2 n end), r.
      split. { intros f Hfu. rewrite Hall, (Hr f Hfu). by destruct r. }
      split. { intros f. rewrite Hall. destruct (Hr' f) as [->| ->]; [by left|right]. by destruct r. }
      split; [done|]. destruct r as [t|].
      * unfold write. rewrite Hw. cbn [io_world io_out io_reported io_writes io_failed]. split_and!; try done.
        -- unfold printed. cbn. by rewrite app_nil_r.
        -- by rewrite unprinted1, app_nil_r.
      * cbn [report io_world io_out io_reported io_writes io_failed]. split_and!; try done. by rewrite app_nil_r.
Qed.
(** ** All lines *)
Lemma glines_sem fmt b pl ls : float_format fmt → Forall (fine_conf in_range) (pipe_confs b) →
  ∀ s n, 0 ≤ n < 2 ^ 64 → pipe_as (w_heap (io_world s)) b pl → io_writes s = None → io_failed s = false →
  (Exists (kills b) (numbered_from n ls) ∧ ∀ f, process_lines fmt f pl s n ls = Panic) ∨
  (¬ Exists (kills b) (numbered_from n ls) ∧ ∃ N s' os, (∀ f, (N ≤ f)%nat → process_lines fmt f pl s n ls = Ok s') ∧
    Forall2 (gline_gives b) (numbered_from n ls) os ∧ io_out s' = io_out s ++ printed os ∧
    io_reported s' = io_reported s ++ unprinted (numbered_from n ls) os ∧
    w_log (io_world s') = w_log (io_world s) ++ concat (map (gline_counts b) (numbered_from n ls))).
Proof.
  intros Hf Hc. induction ls as [|l ls IH]; intros s n Hn Hp Hw Hfl; cbn [process_lines numbered_from] in *.
  - right. split; [intros H; by apply Exists_nil in H|]. exists O, s, []. split_and!; [done|constructor| | |]; by rewrite app_nil_r.
  - assert (0 ≤ (n + 1) mod 2 ^ 64 < 2 ^ 64) as Hn' by (apply Z.mod_pos_bound; lia).
    set (n' := (n + 1) mod 2 ^ 64) in *. destruct (trim l) as [|c line] eqn:Et; [by apply IH|].
    destruct (gline_sem fmt b pl s n' (c :: line) Hf Hp Hc Hn' Hw Hfl) as [[Hk HP]|(Hnk & N1 & s1 & o & H1 & H1' & Hg & Hp1 & Ho1 & Hr1 & Hw1 & Hfl1 & Hl1)].
    { left. split; [by apply Exists_cons_hd|]. intros f. by rewrite HP. }
    destruct (IH s1 n' Hn' Hp1 Hw1 Hfl1) as [[Hk HP]|(Hnk2 & N2 & s2 & os & H2 & Hg2 & Ho2 & Hr2 & Hl2)].
    { left. split; [by apply Exists_cons_tl|]. intros f. destruct (H1' f) as [->| ->]; [done|]. apply HP. }
    right. split. { rewrite Exists_cons. tauto. }
    exists (N1 `max` N2)%nat, s2, (o :: os). split.
    { intros f Hfu. rewrite H1 by lia. apply H2. lia. }
    split; [by constructor|]. split; [|split].
    + rewrite Ho2, Ho1, <- app_assoc. f_equal. unfold printed. cbn. by rewrite app_nil_r.
    + rewrite Hr2, Hr1, <- app_assoc. f_equal. by rewrite <- unprinted_cons.
    + rewrite Hl2, Hl1, <- app_assoc. done.
Qed.
