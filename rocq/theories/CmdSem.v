(** * The sawmill command with a pipeline of built-in processors: proofs. *)
From Verif Require Export PipeSem CmdIso JsonMeaning.
From Verif Require Import JsonProps JsonGrammarProps.
From Coq Require Import Lia.
Local Open Scope Z_scope.

(** ** The fields of a line stay presentable *)
Lemma mset_not_nil {A} k (x : A) m : mset k x m ≠ [].
Proof. destruct m as [|[k' y] m]; [done|]. simpl. by destruct (String.compare k k'). Qed.
Lemma tput_not_nil path t m m' : tput path t m = Ok (Some m') → m' ≠ [].
Proof.
  destruct path as [|k path]; [done|]. destruct path as [|k2 path].
  - cbn [tput]. intros [= <-]. apply mset_not_nil.
  - rewrite tput_cons. intros H. repeat case_match; simplify_eq; apply mset_not_nil.
Qed.
Lemma range_mset k t m : in_range t → in_range (TObj m) → in_range (TObj (mset k t m)).
Proof.
  rewrite !in_range_obj. intros Ht Hm. induction Hm as [|[k' y] m Hy Hm IH]; simpl; [by repeat constructor|].
  destruct (String.compare k k'); repeat (apply List.Forall_cons; [done|]); done.
Qed.
Lemma range_mget k t m : in_range (TObj m) → mget k m = Some t → in_range t.
Proof. rewrite in_range_obj, Forall_forall. intros H Hk. apply mget_Some_In in Hk. apply (H (k, t)). by apply elem_of_list_In. Qed.
Lemma range_tput path t m m' : in_range t → in_range (TObj m) → tput path t m = Ok (Some m') → in_range (TObj m').
Proof.
  intros Ht. revert m m'. induction path as [|k path IH]; intros m m' Hm H; [done|]. destruct path as [|k2 path].
  - cbn [tput] in H. simplify_eq. by apply range_mset.
  - rewrite tput_cons in H. destruct (mget k m) as [t0|] eqn:Ek.
    + pose proof (range_mget _ _ _ Hm Ek) as H0. destruct t0; try done.
      destruct (tput (k2 :: path) t m0) as [[m1|]|] eqn:E; simplify_eq. apply range_mset; [|done]. by eapply IH.
    + destruct (tput (k2 :: path) t []) as [[m1|]|] eqn:E; simplify_eq. apply range_mset; [|done]. by eapply (IH []).
Qed.
Lemma range_tget path t m : in_range (TObj m) → tget path m = Ok (Some t) → in_range t.
Proof.
  revert m. induction path as [|k path IH]; intros m Hm H.
  - cbn [tget] in H. destruct m; simplify_eq. done.
  - cbn [tget] in H. destruct (mget k m) as [t0|] eqn:Ek; [|done]. pose proof (range_mget _ _ _ Hm Ek) as H0.
    destruct path as [|k2 path]; [by destruct t0; simplify_eq|]. destruct t0; simplify_eq; try done. by apply (IH m0).
Qed.
Definition presentable (m : gomap tree) : Prop := mclean m ∧ m ≠ [] ∧ in_range (TObj m).
Lemma presentable_keeps b : Forall (fine_conf (λ t, tclean t ∧ in_range t)) (pipe_confs b) →
  ∀ m, presentable m → fine (sem_pipe b m) (λ '(m', _, _), presentable m').
Proof.
  apply sem_pipe_keeps.
  - done.
  - intros m path (Hc & _ & Hr). destruct (tget_clean_ok path m Hc) as (o & Ho & Ht). rewrite Ho.
    intros t ->. split; [by apply Ht|]. by eapply range_tget.
  - intros l s [H1 H2]. apply tclean_arr in H1. apply in_range_arr in H2. split.
    + apply tclean_arr, Forall_app. split; [done|]. by repeat constructor.
    + apply in_range_arr, Forall_app. split; [done|]. by repeat constructor.
  - intros m path t (Hc & _ & Hr) [Ht1 Ht2]. destruct (tput_clean path t m Hc Ht1) as (o & Ho & Hk). rewrite Ho.
    intros m' ->. split_and!; [by apply Hk|by eapply tput_not_nil|by eapply range_tput].
  - done.
  - intros t [H _]. by apply tclean_not_nil.
Qed.
Lemma line_presentable n line : 0 ≤ n < 2 ^ 64 → presentable (line_fields n line).
Proof. intros Hn. split_and!; [|done|]; unfold line_fields; [|by repeat split; cbn; lia]. repeat split; repeat constructor. Qed.

(** ** One line *)
Definition writable (m : gomap tree) : Prop := ¬ has_nonfinite (TObj m) ∧ tdepth (TObj m) ≤ 10000.
Definition line_gives (b : bpipe) (x : Z * list ascii) (o : option (list ascii)) : Prop :=
  match sem_pipe b (line_fields x.1 x.2) with
  | Gives (m', None, _) =>
      (writable m' → ∃ text j, o = Some text ∧ document text j ∧ shown (TObj m') j) ∧ (¬ writable m' → o = None)
  | Gives (_, Some _, _) => o = None
  | Crashes | Shares => False
  end.
Definition line_counts (b : bpipe) (x : Z * list ascii) : list (string * metric) :=
  match sem_pipe b (line_fields x.1 x.2) with Gives (_, _, counted) => counted | _ => [] end.
Lemma vals_holds h h' p t : vals_kept h h' → holds h p t → holds h' p t.
Proof. intros H (v & Hv & Ht). exists v. split; [by apply H|done]. Qed.
Lemma event_text fmt h e m fp : float_format fmt → ev_rep h e m fp → m ≠ [] → in_range (TObj m) →
  ∃ N r, (∀ f, (N ≤ f)%nat → MarshalText fmt f h e = Ok r) ∧
    (writable m → ∃ text j, r = Some text ∧ document text j ∧ shown (TObj m) j) ∧ (¬ writable m → r = None).
Proof.
  intros Hf Hev Hne Hr.
  assert (fields e ≠ None) as Hfe. { intros E. unfold ev_rep in Hev. rewrite E in Hev. by destruct Hev. }
  destruct (C42_refused fmt h e m fp Hev Hfe) as (n1 & r & H1 & Hiff). apply in_range_obj in Hr.
  destruct (C53_writes fmt h e m fp Hf Hev Hr) as (n2 & H2). exists (n1 `max` n2)%nat, r.
  split; [intros f Hfu; apply H1; lia|]. split.
  - intros [W1 W2]. destruct r as [text|].
    2:{ exfalso. destruct (proj1 Hiff eq_refl); [done|lia]. }
    destruct (H2 (n1 `max` n2)%nat ltac:(lia) text) as (j & Hd & _ & Hsh); [apply H1; lia|].
    destruct (fields e); [|done]. eauto 10.
  - intros Hw. destruct r as [text|]; [|done]. exfalso. apply Hw. split.
    + intros Hn. assert (Some text = None) by (apply Hiff; by left). done.
    + destruct (Z.le_gt_cases (tdepth (TObj m)) 10000); [done|]. assert (Some text = None) by (apply Hiff; right; lia). done.
Qed.
Lemma line_sem fmt b pl s n line : float_format fmt → pipe_as (w_heap (io_world s)) b pl →
  Forall (fine_conf in_range) (pipe_confs b) → 0 ≤ n < 2 ^ 64 → io_writes s = None → io_failed s = false →
  sem_pipe b (line_fields n line) ≠ Shares →
  ∃ N s' o, (∀ f, (N ≤ f)%nat → process_line fmt f pl s n line = Ok s') ∧
    line_gives b (n, line) o ∧ pipe_as (w_heap (io_world s')) b pl ∧
    io_out s' = io_out s ++ printed [o] ∧ io_reported s' = io_reported s ++ unprinted [(n, line)] [o] ∧
    io_writes s' = None ∧ io_failed s' = false ∧
    w_log (io_world s') = w_log (io_world s) ++ line_counts b (n, line).
Proof.
  intros Hf Hp Hc Hn Hw Hfl Hns. unfold line_gives, line_counts. cbn [fst snd].
  destruct (line_run (w_heap (io_world s)) n line) as (h & e & outs & fp & Hrun & Hev).
  set (i := length (w_events (io_world s))).
  set (w1 := mkWorld h (w_events (io_world s) ++ [e]) (w_env (io_world s)) (w_log (io_world s))).
  assert (pipe_as (w_heap w1) b pl) as Hp1.
  { eapply pipe_as_mono; [|exact Hp]. intros p t. apply vals_holds. by eapply line_run_vals. }
  assert (showing w1 i (line_fields n line) fp) as Hs1.
  { exists e. split; [|done]. cbn [w1 w_events]. rewrite lookup_app_r by (unfold i; lia). by rewrite Nat.sub_diag. }
  assert (Forall (fine_conf (λ t, tclean t ∧ in_range t)) (pipe_confs b)) as Hfc.
  { pose proof (pipe_as_clean _ _ _ Hp) as Hcl. clear -Hcl Hc. rewrite Forall_forall in *. intros c Hin.
    specialize (Hcl c Hin). specialize (Hc c Hin). by destruct c. }
  pose proof (presentable_keeps b Hfc _ (line_presentable n line Hn)) as Hk.
  pose proof (pipe_sem b pl w1 (mkPEvent (Some i) false false) i (line_fields n line) fp Hp1 eq_refl eq_refl Hs1) as H.
  destruct (sem_pipe b (line_fields n line)) as [[[m' err] lg]| |]; [|done|done]. cbn [grun_to fine] in H, Hk.
  destruct H as (w2 & Hpl & Hm & Hlg). pose proof Hm as ((fp' & (e' & Hi' & Hev') & _) & Hst & _).
  assert (pipe_as (w_heap w2) b pl) as Hp2.
  { eapply pipe_as_mono; [|exact Hp1]. intros p t Hh. by eapply holds_stable. }
  assert (w_log w2 = w_log (io_world s) ++ lg) as Hlg2 by done.
  destruct err as [err|].
  - exists O, (report s w2 n), None. split_and!; try done; [|by rewrite app_nil_r].
    intros f _. unfold process_line. rewrite Hrun. fold w1 i. unfold Process. by rewrite Hpl.
  - destruct Hk as (Hcl & Hne & Hrg). destruct (event_text fmt _ _ _ _ Hf Hev' Hne Hrg) as (N & r & Hr & Hr1 & Hr2).
    exists N, (match r with Some t => write s w2 n (t ++ [nl]) | None => report s w2 n end), r.
    split.
    { intros f Hfu. unfold process_line. rewrite Hrun. fold w1 i. unfold Process. rewrite Hpl. cbn [pe_dropped pe_data].
      rewrite Hfl, Hi', (Hr f Hfu). by destruct r. }
    split; [done|]. destruct r as [t|].
    + unfold write. rewrite Hw. cbn [io_world io_out io_reported io_writes io_failed]. split_and!; try done.
      * unfold printed. cbn. by rewrite app_nil_r.
      * by rewrite unprinted1, app_nil_r.
    + cbn [report io_world io_out io_reported io_writes io_failed]. split_and!; try done. by rewrite app_nil_r.
Qed.

(** ** All lines *)
Lemma unprinted_cons x ls o os : unprinted (x :: ls) (o :: os) = unprinted [x] [o] ++ unprinted ls os.
Proof. unfold unprinted. cbn [zip zip_with]. rewrite !filter_cons. destruct (decide _); done. Qed.
Lemma lines_sem fmt b pl ls : float_format fmt → Forall (fine_conf in_range) (pipe_confs b) →
  ∀ s n, 0 ≤ n < 2 ^ 64 → pipe_as (w_heap (io_world s)) b pl → io_writes s = None → io_failed s = false →
  (∀ x, x ∈ numbered_from n ls → sem_pipe b (line_fields x.1 x.2) ≠ Shares) →
  ∃ N s' os, (∀ f, (N ≤ f)%nat → process_lines fmt f pl s n ls = Ok s') ∧
    Forall2 (line_gives b) (numbered_from n ls) os ∧ io_out s' = io_out s ++ printed os ∧
    io_reported s' = io_reported s ++ unprinted (numbered_from n ls) os ∧
    w_log (io_world s') = w_log (io_world s) ++ concat (map (line_counts b) (numbered_from n ls)).
Proof.
  intros Hf Hc. induction ls as [|l ls IH]; intros s n Hn Hp Hw Hfl Hns; cbn [process_lines numbered_from] in *.
  - exists O, s, []. split_and!; [done|constructor| | |]; by rewrite app_nil_r.
  - assert (0 ≤ (n + 1) mod 2 ^ 64 < 2 ^ 64) as Hn' by (apply Z.mod_pos_bound; lia).
    set (n' := (n + 1) mod 2 ^ 64) in *. destruct (trim l) as [|c line] eqn:Et; [by apply IH|].
    destruct (line_sem fmt b pl s n' (c :: line) Hf Hp Hc Hn' Hw Hfl) as (N1 & s1 & o & H1 & Hg & Hp1 & Ho1 & Hr1 & Hw1 & Hfl1 & Hl1).
    { apply (Hns (n', c :: line)). apply elem_of_cons. by left. }
    destruct (IH s1 n' Hn' Hp1 Hw1 Hfl1) as (N2 & s2 & os & H2 & Hg2 & Ho2 & Hr2 & Hl2).
    { intros x Hx. apply Hns. apply elem_of_cons. by right. }
    exists (N1 `max` N2)%nat, s2, (o :: os). split.
    { intros f Hfu. rewrite H1 by lia. apply H2. lia. }
    split; [by constructor|]. split; [|split].
    + rewrite Ho2, Ho1, <- app_assoc. f_equal. unfold printed. cbn. by rewrite app_nil_r.
    + rewrite Hr2, Hr1, <- app_assoc. f_equal. by rewrite <- unprinted_cons.
    + rewrite Hl2, Hl1, <- app_assoc. done.
Qed.
