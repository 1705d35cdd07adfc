(** * processInput line by line. *)
From Verif Require Export CmdFacts PipelineRun.
From Coq Require Import Lia.
Local Open Scope Z_scope.

(** ** Printable output *)
Lemma jmapM_cons {A B} (f : A → Outcome (option B)) x l :
  jmapM f (x :: l) = jbind (f x) (λ y, jbind (jmapM f l) (λ ys, Ok (Some (y :: ys)))).
Proof. done. Qed.
Lemma jmapM_ok {A B} (f : A → Outcome (option B)) l ys :
  jmapM f l = Ok (Some ys) ↔ Forall2 (λ x y, f x = Ok (Some y)) l ys.
Proof.
  revert ys. induction l as [|x l IH]; intros ys.
  - cbn. split; [intros [= <-]; constructor|]. by inversion 1.
  - rewrite jmapM_cons. split.
    + destruct (f x) as [[y|]|] eqn:E; cbn [jbind]; [|done|done].
      destruct (jmapM f l) as [[ys'|]|] eqn:E2; cbn [jbind]; try done.
      intros [= <-]. constructor; [done|by apply IH].
    + inversion 1 as [|? y ? ys' H1 H2]; subst. rewrite H1. cbn [jbind]. apply IH in H2. by rewrite H2.
Qed.
Lemma jmember_ok (f : option ptr → Outcome (option json)) (l : list (string * option ptr)) ys :
  jmapM (λ kv, jbind (f kv.2) (λ j, jret (kv.1, j))) l = Ok (Some ys) ↔
  Forall2 (λ (kv : string * option ptr) (y : string * json), y.1 = kv.1 ∧ f kv.2 = Ok (Some y.2)) l ys.
Proof.
  rewrite jmapM_ok. split; intros H; (eapply Forall2_impl; [exact H|]); intros [k x] [k' y]; cbn.
  - destruct (f x) as [[z|]|]; cbn; try done. intros [= -> ->]. done.
  - intros [-> ->]. done.
Qed.
Lemma valueJSON_jwf fmt : float_format fmt → ∀ f h op j, valueJSON fmt f h op = Ok (Some j) → jwf j.
Proof.
  intros Hf f h. induction f as [|f IH]; intros op j H; [done|]. cbn [valueJSON] in H.
  destruct op as [p|]; [|by unfold jret in H; simplify_eq]. cbn [deref] in H. destruct (hvals h !! p) as [v|]; [|done]. cbn [obind] in H.
  destruct (N.eqb _ ArrayType).
  { destruct (v_arr v) as [l|]; [|by unfold jret in H; simplify_eq].
    destruct (jmapM _ l) as [[js|]|] eqn:E; cbn [jbind] in H; [|done|done]. unfold scanned, jret in H. destruct (_ <=? _); simplify_eq. apply jwf_arr. apply jmapM_ok in E.
    apply Forall_forall. intros j Hj. apply elem_of_list_lookup in Hj as [i Hj].
    destruct (Forall2_lookup_r _ _ _ _ _ E Hj) as (x & _ & Hx). eauto. }
  destruct (N.eqb _ BoolType); [by unfold jret in H; simplify_eq|].
  destruct (N.eqb _ FloatType).
  { destruct (finite64 _) eqn:Ef; [|done]. unfold jret in H. simplify_eq. specialize (Hf _ Ef). unfold jfloat. destruct (fmt _) as [[neg m] e]. by destruct Hf. }
  destruct (N.eqb _ IntegerType); [unfold jret in H; simplify_eq; cbn; lia|].
  destruct (N.eqb _ ObjectType).
  { destruct (v_obj v) as [r|]; [|by unfold jret in H; simplify_eq].
    destruct (jmapM _ (map_of h (Some r))) as [[js|]|] eqn:E; cbn [jbind] in H; [|done|done]. unfold scanned, jret in H. destruct (_ <=? _); simplify_eq. apply jwf_obj. apply jmember_ok in E.
    apply Forall_forall. intros j Hj. apply elem_of_list_lookup in Hj as [i Hj].
    destruct (Forall2_lookup_r _ _ _ _ _ E Hj) as (x & _ & _ & Hx). eauto. }
  destruct (N.eqb _ StringType); [by unfold jret in H; simplify_eq|].
  destruct (N.eqb _ TimestampType); [by unfold jret in H; simplify_eq|].
  destruct (N.eqb _ UnsignedIntegerType); [unfold jret in H; simplify_eq; cbn; lia|by unfold jret in H; simplify_eq].
Qed.
Lemma MarshalText_printable fmt f h e t : float_format fmt → MarshalText fmt f h e = Ok (Some t) → Forall printable t.
Proof.
  intros Hf. unfold MarshalText, MarshalEvent. destruct (fields e) as [r|].
  - destruct (jmapM _ (map_of h (Some r))) as [[js|]|] eqn:E; cbn [jbind]; [|done|done].
    unfold jret, scanned. cbn [jbind]. destruct (_ <=? _); cbn [jbind]; [|done]. intros Ht. injection Ht as <-. apply (render_printable (JObj js)), jwf_obj. apply jmember_ok in E.
    apply Forall_forall. intros j Hj. apply elem_of_list_lookup in Hj as [i Hj].
    destruct (Forall2_lookup_r _ _ _ _ _ E Hj) as (x & _ & _ & Hx). by eapply valueJSON_jwf.
  - unfold jret, scanned. cbn [jbind]. destruct (_ <=? _); cbn [jbind]; [|done]. intros Ht. injection Ht as <-. by apply (render_printable JNull).
Qed.

(** ** One event per line *)
(** The fields of the event made for a line. *)
Definition line_fields (n : Z) (line : list ascii) : gomap tree :=
  [("@metadata", TObj [("line_number", TUint n)]);
   ("event", TObj [("original", TStr (string_of_list_ascii line))])].

Lemma line_run h n line : ∃ h' e outs fp, run h newEvent (line_ops n line) = Ok (h', e, outs) ∧
  ev_rep h' e (line_fields n line) fp.
Proof.
  pose proof (run_ref (line_ops n line) h newEvent [] [] (conj eq_refl eq_refl)) as H.
  assert (srun [] (line_ops n line) = Ok (line_fields n line, [mkSRes None None; mkSRes None None])) as E by done.
  rewrite E in H. destruct H as (h' & e & outs & fp & H1 & _ & H2); [by repeat constructor|]. eauto 10.
Qed.

(** [shows w w1 i m]: [w1] is [w] with one more event [i], showing the fields [m]. *)
Definition one_more (w w1 : world) (i : nat) (m : gomap tree) : Prop :=
  ∃ e fp, i = length (w_events w) ∧ w_events w1 = w_events w ++ [e] ∧ ev_rep (w_heap w1) e m fp ∧
    w_log w1 = w_log w ∧ w_env w1 = w_env w.
(** The lines [ls], with their numbers, are served one after the other, from world [w]
    to [w']; [o] says what is printed for each line, None if it fails. *)
Inductive served (fmt : Z → bool * Z * Z) (f : nat) (pl : pipeline) :
  world → list (Z * list ascii) → world → list (option (list ascii)) → Prop :=
| served_nil w : served fmt f pl w [] w []
| served_error w n line ls w1 i w2 err w' os :
    one_more w w1 i (line_fields n line) → Process pl w1 (Some i) = Ok (w2, None, Some err) →
    served fmt f pl w2 ls w' os → served fmt f pl w ((n, line) :: ls) w' (None :: os)
| served_event w n line ls w1 i w2 e o w' os :
    one_more w w1 i (line_fields n line) → Process pl w1 (Some i) = Ok (w2, Some i, None) →
    w_events w2 !! i = Some e → MarshalText fmt f (w_heap w2) e = Ok o →
    served fmt f pl w2 ls w' os → served fmt f pl w ((n, line) :: ls) w' (o :: os).

(** Lines are counted from 1, blank ones too; blank lines are skipped. *)
Definition numbered (ls : list (list ascii)) : list (Z * list ascii) :=
  filter (λ x, x.2 ≠ []) (imap (λ k l, ((Z.of_nat k + 1) mod 2 ^ 64, trim l)) ls).
Fixpoint numbered_from (n : Z) (ls : list (list ascii)) : list (Z * list ascii) :=
  match ls with
  | [] => []
  | l :: ls' => let n := (n + 1) mod 2 ^ 64 in
                match trim l with [] => numbered_from n ls' | line => (n, line) :: numbered_from n ls' end
  end.
Lemma numbered_eq ls : numbered_from 0 ls = numbered ls.
Proof.
  unfold numbered. assert (∀ k f, (∀ j l, f j l = ((Z.of_nat (k + j) + 1) mod 2 ^ 64, trim l)) →
    numbered_from (Z.of_nat k mod 2 ^ 64) ls = filter (λ x, x.2 ≠ []) (imap f ls)) as H.
  { induction ls as [|l ls IH]; intros k f Hf; [done|]. cbn [numbered_from imap].
    assert ((Z.of_nat k mod 2 ^ 64 + 1) mod 2 ^ 64 = Z.of_nat (S k) mod 2 ^ 64) as ->.
    { rewrite Zplus_mod_idemp_l. f_equal. lia. }
    assert (f 0%nat l = (Z.of_nat (S k) mod 2 ^ 64, trim l)) as Hf0 by (rewrite Hf; do 2 f_equal; lia).
    rewrite filter_cons, Hf0. cbn [snd].
    rewrite (IH (S k) (f ∘ S)) by (intros j l'; cbn; rewrite Hf; do 2 f_equal; lia).
    destruct (trim l) as [|c t] eqn:E.
    - rewrite decide_False by (intros Hc; by apply Hc). done.
    - rewrite decide_True by done. done. }
  apply (H 0%nat). intros j l. do 3 f_equal.
Qed.

Definition printed (os : list (option (list ascii))) : list ascii :=
  concat (map (λ o, match o with Some t => t ++ [nl] | None => [] end) os).
Definition unprinted (ls : list (Z * list ascii)) (os : list (option (list ascii))) : list Z :=
  (filter (λ x, x.2 = None) (zip ls os)).*1.*1.

Lemma process_lines_served fmt f pl ls : ∀ s n s', io_writes s = None → io_failed s = false →
  process_lines fmt f pl s n ls = Ok s' →
  ∃ os, served fmt f pl (io_world s) (numbered_from n ls) (io_world s') os ∧
    length os = length (numbered_from n ls) ∧
    io_out s' = io_out s ++ printed os ∧ io_reported s' = io_reported s ++ unprinted (numbered_from n ls) os.
Proof.
  induction ls as [|l ls IH]; intros s n s' Hw Hfl H; cbn [process_lines numbered_from] in *.
  { injection H as <-. exists []. split_and!; [constructor|done|by rewrite app_nil_r|by rewrite app_nil_r]. }
  set (m := (n + 1) mod 2 ^ 64) in *. destruct (trim l) as [|c line] eqn:Et; [by apply IH|].
  destruct (process_line fmt f pl s m (c :: line)) as [s1|] eqn:E; [|done].
  unfold process_line in E.
  destruct (line_run (w_heap (io_world s)) m (c :: line)) as (h & e & outs & fp & Hr & Hev). rewrite Hr in E.
  set (w1 := mkWorld h (w_events (io_world s) ++ [e]) (w_env (io_world s)) (w_log (io_world s))) in *.
  set (i := length (w_events (io_world s))) in *.
  assert (one_more (io_world s) w1 i (line_fields m (c :: line))) as Hom by (by exists e, fp).
  destruct (Process pl w1 (Some i)) as [[[w2 r] err]|] eqn:Ep; [|done].
  assert ((err = None ∧ r = Some i) ∨ (err ≠ None ∧ r = None)) as Hre.
  { destruct (Process_pl _ _ _ _ _ _ Ep) as (pe' & _ & ->). destruct err; naive_solver. }
  destruct err as [err|].
  - destruct Hre as [[? _]|[_ ->]]; [done|]. injection E as <-.
    destruct (IH (report s w2 m) m s' Hw Hfl H) as (os & Hs & Hl & Ho & Hrep).
    exists (None :: os). split_and!; [by econstructor|simpl; by rewrite Hl|by rewrite Ho|].
    rewrite Hrep. cbn. by rewrite <- app_assoc.
  - destruct Hre as [[_ ->]|[? _]]; [|done]. rewrite Hfl in E.
    destruct (w_events w2 !! i) as [e2|] eqn:Ee; [|done].
    destruct (MarshalText fmt f (w_heap w2) e2) as [[t|]|] eqn:Em; [| |done]; injection E as <-.
    + unfold write in H. rewrite Hw in H.
      destruct (IH (mkIO w2 (io_out s ++ t ++ [nl]) None false (io_reported s)) m s' eq_refl eq_refl H) as (os & Hs & Hl & Ho & Hrep). cbn in Hs, Ho, Hrep.
      exists (Some t :: os). split_and!; [by eapply served_event|simpl; by rewrite Hl| |].
      * rewrite Ho. unfold printed. cbn. by rewrite <- !app_assoc.
      * rewrite Hrep. unfold unprinted. cbn [zip zip_with]. rewrite filter_cons. by rewrite decide_False by done.
    + destruct (IH (report s w2 m) m s' Hw Hfl H) as (os & Hs & Hl & Ho & Hrep).
      exists (None :: os). split_and!; [by eapply served_event|simpl; by rewrite Hl|by rewrite Ho|].
      rewrite Hrep. cbn. by rewrite <- app_assoc.
Qed.
