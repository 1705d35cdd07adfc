(** * Lines do not affect each other; write errors. *)
From Verif Require Export CmdTrace.
From Coq Require Import Lia.
Local Open Scope Z_scope.

(** ** JSON does not depend on addresses *)
Lemma jmapM_rel {A A' B} (R : A → A' → Prop) (f : A → Outcome (option B)) (g : A' → Outcome (option B)) l l' :
  Forall2 R l l' → (∀ x y, R x y → f x = g y) → jmapM f l = jmapM g l'.
Proof. intros H Hfg. induction H as [|x y l l' Hxy _ IH]; [done|]. rewrite !jmapM_cons, IH, (Hfg _ _ Hxy). done. Qed.
Lemma valueJSON_iso fmt b h1 h2 f : iso b h1 h2 → ∀ x y, orel (bp b) x y → valueJSON fmt f h1 x = valueJSON fmt f h2 y.
Proof.
  intros Hi. induction f as [|f IH]; intros x y H; [done|]. cbn [valueJSON].
  destruct x as [p|], y as [q0|]; simpl in H; try done.
  destruct (iso_val _ _ _ Hi _ _ H) as (v1 & v2 & Hp & Hq & Hv). cbn [deref]. rewrite Hp, Hq. cbn [obind].
  destruct Hv as (E1 & E2 & E3 & E4 & E5 & E6 & E7 & Ea & Eo). rewrite E1, E2, E3, E4, E5, E6, E7.
  destruct (N.eqb _ ArrayType).
  { destruct (v_arr v1) as [l1|], (v_arr v2) as [l2|]; simpl in Ea; try done.
    by rewrite (jmapM_rel _ _ (valueJSON fmt f h2) _ _ Ea IH). }
  destruct (N.eqb _ BoolType); [done|]. destruct (N.eqb _ FloatType); [done|]. destruct (N.eqb _ IntegerType); [done|].
  destruct (N.eqb _ ObjectType); [|done].
  pose proof (iso_map_of b h1 h2 _ _ Hi Eo) as Hm.
  destruct (v_obj v1) as [r1|], (v_obj v2) as [r2|]; simpl in Eo; try done.
  rewrite (jmapM_rel _ _ (λ kv, jbind (valueJSON fmt f h2 kv.2) (λ j, jret (kv.1, j))) _ _ Hm); [done|].
  intros [k1 a] [k2 c] [Hk Hac]. cbn in *. subst k2. by rewrite (IH _ _ Hac).
Qed.
Lemma MarshalText_iso fmt b h1 h2 e1 e2 f : iso b h1 h2 → ev_rel b e1 e2 → MarshalText fmt f h1 e1 = MarshalText fmt f h2 e2.
Proof.
  intros Hi He. unfold MarshalText, MarshalEvent. pose proof (iso_map_of b h1 h2 _ _ Hi He) as Hm.
  unfold ev_rel in He. destruct (fields e1) as [r1|], (fields e2) as [r2|]; simpl in He; try done.
  rewrite (jmapM_rel _ _ (λ kv, jbind (valueJSON fmt f h2 kv.2) (λ j, jret (kv.1, j))) _ _ Hm); [done|].
  intros [k1 a] [k2 c] [Hk Hac]. cbn in *. subst k2. by rewrite (valueJSON_iso fmt b h1 h2 f Hi _ _ Hac).
Qed.

(** ** Building the event of a line *)
Lemma exec_put_rel b h1 h2 e1 e2 key t : iso b h1 h2 → ev_rel b e1 e2 →
  match exec h1 e1 (OPut key t), exec h2 e2 (OPut key t) with
  | Ok o1, Ok o2 => ∃ b', sub b b' ∧ iso b' (o_heap o1) (o_heap o2) ∧ ev_rel b' (o_event o1) (o_event o2)
  | Panic, Panic => True
  | _, _ => False
  end.
Proof.
  intros Hi He. cbn [exec]. destruct (iso_alloc_tree t b h1 h2 Hi) as (b1 & Hs1 & Hi1 & Ho).
  destruct (alloc_tree h1 t) as [h1a o1], (alloc_tree h2 t) as [h2a o2]. simpl in Hi1, Ho.
  pose proof (iso_put b1 h1a h2a e1 e2 (keyToPath key) o1 o2 true Hi1 (omap_mono _ _ _ _ Hs1 He) Ho) as Hp.
  unfold Put. destruct (put h1a e1 _ o1 true) as [r1|], (put h2a e2 _ o2 true) as [r2|]; simpl in Hp; try done.
  destruct Hp as ((b2 & Hs2 & Hi2 & He2 & _) & _). exists b2. cbn. split_and!; [by eapply sub_trans|done|done].
Qed.
Lemma exec_put_vals h e key t o : exec h e (OPut key t) = Ok o → vals_kept h (o_heap o).
Proof.
  cbn [exec]. intros H p v Hp. pose proof (alloc_tree_vals t h p v Hp) as Ht. destruct (alloc_tree h t) as [h1 op]. simpl in Ht.
  unfold Put in H. destruct (put h1 e _ op true) as [pr|] eqn:E; [|done]. cbn in H. injection H as <-. cbn.
  by eapply put_vals.
Qed.
Lemma line_run_rel b h1 h2 n line : iso b h1 h2 →
  ∃ h1' e1 o1 h2' e2 o2 b', run h1 newEvent (line_ops n line) = Ok (h1', e1, o1) ∧ run h2 newEvent (line_ops n line) = Ok (h2', e2, o2) ∧
    sub b b' ∧ iso b' h1' h2' ∧ ev_rel b' e1 e2.
Proof.
  intros Hi. destruct (line_run h1 n line) as (h1' & e1 & o1 & fp1 & H1 & _). destruct (line_run h2 n line) as (h2' & e2 & o2 & fp2 & H2 & _).
  exists h1', e1, o1, h2', e2, o2. pose proof H1 as K1. pose proof H2 as K2. unfold line_ops in H1, H2. cbn [run] in H1, H2.
  pose proof (exec_put_rel b h1 h2 newEvent newEvent "@metadata.line_number" (TUint n) Hi I) as Ha.
  set (op1 := OPut "@metadata.line_number" (TUint n)) in *. set (op2 := OPut "event.original" _) in *.
  destruct (exec h1 newEvent op1) as [x1|], (exec h2 newEvent op1) as [x2|]; try done.
  destruct Ha as (b1 & Hs1 & Hi1 & He1).
  pose proof (exec_put_rel b1 _ _ _ _ "event.original" (TStr (string_of_list_ascii line)) Hi1 He1) as Hb. fold op2 in Hb.
  destruct (exec (o_heap x1) _ op2) as [y1|], (exec (o_heap x2) _ op2) as [y2|] eqn:Ey2; try done.
  destruct Hb as (b2 & Hs2 & Hi2 & He2). exists b2. injection H1 as <- <- _. injection H2 as <- <- _.
  split_and!; [done|done|by eapply sub_trans|done|done].
Qed.
Lemma line_run_vals h n line h' e o : run h newEvent (line_ops n line) = Ok (h', e, o) → vals_kept h h'.
Proof.
  unfold line_ops. cbn [run]. intros H p v Hp.
  destruct (exec h newEvent _) as [x|] eqn:Ex; [|done]. destruct (exec (o_heap x) _ _) as [y|] eqn:Ey; [|done].
  simplify_eq. eapply exec_put_vals; [exact Ey|]. by eapply exec_put_vals.
Qed.

(** ** One line in two worlds *)
Definition start (w : world) : io := mkIO w [] None false [].
(** What a line prints when it is processed in world [w]. *)
Definition alone fmt f pl (w : world) (n : Z) (line : list ascii) (o : option (list ascii)) : Prop :=
  ∃ s', process_line fmt f pl (start w) n line = Ok s' ∧ io_out s' = printed [o] ∧ io_reported s' = unprinted [(n, line)] [o].

Lemma unprinted1 n line t : unprinted [(n, line)] [Some t] = [].
Proof. reflexivity. Qed.
Lemma process_line_same fmt f C pl w0 s n line s' :
  Forall (λ q, stateless C (p_prog q)) (pl_all pl) → same_cells C w0 (io_world s) →
  io_writes s = None → io_failed s = false →
  process_line fmt f pl s n line = Ok s' →
  ∃ o, alone fmt f pl w0 n line o ∧ io_out s' = io_out s ++ printed [o] ∧
    io_reported s' = io_reported s ++ unprinted [(n, line)] [o] ∧ io_writes s' = None ∧ io_failed s' = false.
Proof.
  intros Hall Hc Hw Hfl H. apply same_cells_iso in Hc. unfold alone, process_line in *. cbn [start io_world io_failed] in *.
  destruct (line_run_rel _ _ _ n line Hc) as (h1 & e1 & o1 & h2 & e2 & o2 & b1 & Hr1 & Hr2 & Hs1 & Hi1 & He1).
  rewrite Hr1. rewrite Hr2 in H.
  set (wa := mkWorld h1 _ _ _). set (wb := mkWorld h2 _ _ _) in H.
  set (i1 := length (w_events w0)). set (i2 := length (w_events (io_world s))) in H.
  assert (world_rel b1 i1 i2 wa wb) as Hw1.
  { split; [exact Hi1|]. exists e1, e2. subst wa wb i1 i2. cbn. rewrite !lookup_app_r, !Nat.sub_diag by apply Nat.le_refl. done. }
  assert (Forall (λ q, prog_rel b1 (p_prog q) (p_prog q)) (pl_all pl)) as Hall'.
  { eapply Forall_impl; [exact Hall|]. intros q0 Hq. exact (prog_rel_mono _ _ _ Hq _ Hs1). }
  pose proof (Process_rel b1 pl i1 i2 wa wb Hall' Hw1) as Hp.
  destruct (Process pl wa (Some i1)) as [[[wc r1] x1]|] eqn:Ep1, (Process pl wb (Some i2)) as [[[wd r2] x2]|] eqn:Ep2; simpl in Hp; try done.
  destruct Hp as (-> & Hrr & (b2 & Hs2 & Hi2 & ea & eb & Hea & Heb & Heab) & _).
  destruct x2 as [err|].
  - injection H as <-. exists None. split; [eexists; split; [reflexivity|]; done|]. cbn. by rewrite app_nil_r.
  - rewrite Hfl in H. assert (r1 = Some i1 ∧ r2 = Some i2) as [-> ->].
    { destruct (Process_pl _ _ _ _ _ _ Ep1) as (? & _ & ->). by destruct (Process_pl _ _ _ _ _ _ Ep2) as (? & _ & ->). }
    rewrite Heb in H. rewrite Hea. rewrite (MarshalText_iso fmt b2 _ _ _ _ f Hi2 Heab).
    destruct (MarshalText fmt f (w_heap wd) eb) as [[t|]|]; [| |done]; injection H as <-.
    + exists (Some t). unfold write, start. cbn [io_writes]. rewrite Hw, unprinted1. split.
      * eexists. split; [reflexivity|]. cbn [io_out io_reported]. unfold printed. cbn. by rewrite !app_nil_r.
      * cbn [io_out io_reported io_writes io_failed]. unfold printed. cbn. by rewrite !app_nil_r.
    + exists None. split; [eexists; split; [reflexivity|]; done|]. cbn. by rewrite app_nil_r.
Qed.
Lemma process_line_plain fmt f pl s n line s' :
  Forall (λ q, keeps_plain (p_prog q)) (pl_all pl) → process_line fmt f pl s n line = Ok s' → plain_kept (io_world s) (io_world s').
Proof.
  intros Hk H. unfold process_line in H. destruct (run _ _ _) as [[[h e] o]|] eqn:Er; [|done].
  apply line_run_vals in Er.
  assert (plain_kept (io_world s) (mkWorld h (w_events (io_world s) ++ [e]) (w_env (io_world s)) (w_log (io_world s)))) as H1.
  { intros p v Hp _. by apply Er. }
  destruct (Process pl _ _) as [[[w2 r] err]|] eqn:Ep; [|done].
  apply (Process_plain _ _ _ _ _ _ Hk) in Ep. pose proof (plain_kept_trans _ _ _ H1 Ep) as H2.
  assert (io_world s' = w2) as ->; [|done].
  destruct err; [by injection H as <-|]. destruct (io_failed s); [by injection H as <-|].
  assert (∀ t, io_world (write s w2 n t) = w2) as Hwr. { intros t. unfold write. by destruct (io_writes s) as [[[] ?]|]. }
  destruct r as [j|]; [|injection H as <-; apply Hwr].
  destruct (w_events w2 !! j); [|done]. destruct (MarshalText _ _ _ _) as [[t|]|]; [| |done]; injection H as <-; [apply Hwr|done].
Qed.

Lemma printed_cons o os : printed (o :: os) = printed [o] ++ printed os.
Proof. unfold printed. cbn. by rewrite app_nil_r. Qed.
Lemma unprinted_cons x ls o os : unprinted (x :: ls) (o :: os) = unprinted [x] [o] ++ unprinted ls os.
Proof.
  unfold unprinted. cbn [zip zip_with]. rewrite !filter_cons. destruct (decide _); [done|]. done.
Qed.
Lemma process_lines_alone fmt f C pl w0 ls :
  Forall (λ q, stateless C (p_prog q)) (pl_all pl) → Forall (λ q, keeps_plain (p_prog q)) (pl_all pl) → 
  ∀ s n s', same_cells C w0 (io_world s) → io_writes s = None → io_failed s = false →
  process_lines fmt f pl s n ls = Ok s' →
  ∃ os, Forall2 (λ x o, alone fmt f pl w0 x.1 x.2 o) (numbered_from n ls) os ∧
    io_out s' = io_out s ++ printed os ∧ io_reported s' = io_reported s ++ unprinted (numbered_from n ls) os.
Proof.
  intros Hst Hk. induction ls as [|l ls IH]; intros s n s' Hc Hw Hfl H; cbn [process_lines numbered_from] in *.
  { injection H as <-. exists []. split_and!; [constructor|by rewrite app_nil_r|by rewrite app_nil_r]. }
  set (m := (n + 1) mod 2 ^ 64) in *. destruct (trim l) as [|c line] eqn:Et; [by apply IH|].
  destruct (process_line fmt f pl s m (c :: line)) as [s1|] eqn:E; [|done].
  destruct (process_line_same fmt f C pl w0 s m _ s1 Hst Hc Hw Hfl E) as (o & Ha & Ho & Hr & Hw1 & Hf1).
  assert (same_cells C w0 (io_world s1)) as Hc1.
  { intros p Hp. destruct (Hc p Hp) as (v & H1 & H2 & Hpl). exists v. split_and!; [done| |done].
    exact (process_line_plain fmt f pl s m _ s1 Hk E p v H2 Hpl). }
  destruct (IH s1 m s' Hc1 Hw1 Hf1 H) as (os & Hs & Ho' & Hr').
  exists (o :: os). split_and!; [by constructor| |].
  - rewrite Ho', Ho, (printed_cons o os), <- app_assoc. reflexivity.
  - rewrite Hr', Hr, (unprinted_cons _ _ o os), <- app_assoc. reflexivity.
Qed.

(** ** Write errors *)
Definition texts (ts : list (list ascii)) : list ascii := concat (map (λ t, t ++ [nl]) ts).
(** What a line gives: its number, and a text or nothing. *)
Notation result := (Z * option (list ascii))%type.
Definition shown_texts (rs : list result) : list (list ascii) := omap snd rs.
Definition without_text (rs : list result) : list Z := map fst (filter (λ r, r.2 = None) rs).
Definition deliver (s : io) (w : world) (r : result) : io :=
  match r.2 with
  | Some t => if io_failed s then report s w r.1 else write s w r.1 (t ++ [nl])
  | None => report s w r.1
  end.
Lemma process_line_any fmt f pl sN n line sN' : io_failed sN = false → process_line fmt f pl sN n line = Ok sN' →
  ∃ w o, sN' = deliver sN w (n, o) ∧ ∀ s, io_world s = io_world sN → process_line fmt f pl s n line = Ok (deliver s w (n, o)).
Proof.
  intros Hf H. unfold process_line in *. destruct (run (w_heap (io_world sN)) _ _) as [[[h e] o]|] eqn:Er; [|done].
  destruct (Process pl _ _) as [[[w2 r] [err|]]|] eqn:Ep; [| |done].
  - injection H as <-. exists w2, None. split; [done|]. intros s Hs. rewrite Hs, Er, Ep. done.
  - rewrite Hf in H.
    assert (∃ o, sN' = deliver sN w2 (n, o) ∧ ∀ s, deliver s w2 (n, o) = (if io_failed s then report s w2 n
      else match o with Some t => write s w2 n (t ++ [nl]) | None => report s w2 n end) ∧
      Ok (match o with Some t => write s w2 n (t ++ [nl]) | None => report s w2 n end) =
        match r with
            | None => Ok (write s w2 n (list_ascii_of_string "null" ++ [nl]))
            | Some j =>
                match w_events w2 !! j with
                | None => Panic
                | Some e' =>
                    match MarshalText fmt f (w_heap w2) e' with
                    | Panic => Panic
                    | Ok None => Ok (report s w2 n)
                    | Ok (Some t) => Ok (write s w2 n (t ++ [nl]))
                    end
                end
            end) as (ot & Ho & Hall).
    { destruct r as [j|].
      - destruct (w_events w2 !! j) as [e'|]; [|done]. destruct (MarshalText fmt f (w_heap w2) e') as [[t|]|]; [| |done]; injection H as <-.
        + exists (Some t). split; [unfold deliver; cbn [fst snd]; by rewrite Hf|]. intros s. split; [|done]. unfold deliver. cbn [fst snd]. by destruct (io_failed s).
        + exists None. split; [done|]. intros s. split; [|done]. unfold deliver. cbn [fst snd]. by destruct (io_failed s).
      - injection H as <-. exists (Some (list_ascii_of_string "null")). split; [unfold deliver; cbn [fst snd]; by rewrite Hf|]. intros s. split; [|done].
        unfold deliver. cbn [fst snd]. by destruct (io_failed s). }
    exists w2, ot. split; [done|]. intros s Hs. rewrite Hs, Er, Ep. destruct (Hall s) as [-> <-]. by destruct (io_failed s).
Qed.
(** The lines [rs] delivered, one after the other. *)
Fixpoint deliver_all (s : io) (rs : list (world * result)) : io :=
  match rs with
  | [] => s
  | (w, r) :: rs' => deliver_all (deliver s w r) rs'
  end.
Lemma deliver_world s w r : io_world (deliver s w r) = w.
Proof. unfold deliver, write. destruct r as [n [t|]]; cbn [fst snd]; [|done]. destruct (io_failed s); [done|]. by destruct (io_writes s) as [[[] ?]|]. Qed.
Lemma deliver_all_world rs : ∀ s s', io_world s = io_world s' → io_world (deliver_all s rs) = io_world (deliver_all s' rs).
Proof. induction rs as [|[w r] rs IH]; intros s s' H; [done|]. cbn [deliver_all]. apply IH. by rewrite !deliver_world. Qed.
Lemma process_lines_any fmt f pl ls : ∀ sN n sN', io_writes sN = None → io_failed sN = false → process_lines fmt f pl sN n ls = Ok sN' →
  ∃ rs, map fst (map snd rs) = map fst (numbered_from n ls) ∧ sN' = deliver_all sN rs ∧
    ∀ s, io_world s = io_world sN → process_lines fmt f pl s n ls = Ok (deliver_all s rs).
Proof.
  induction ls as [|l ls IH]; intros sN n sN' Hw Hf H; cbn [process_lines numbered_from] in *.
  { injection H as <-. by exists []. }
  destruct (trim l) as [|c line]; [by apply IH|].
  destruct (process_line fmt f pl sN _ _) as [s1|] eqn:E; [|done].
  destruct (process_line_any _ _ _ _ _ _ _ Hf E) as (w & o & -> & Hany).
  assert (io_writes (deliver sN w ((n + 1) mod 2 ^ 64, o)) = None ∧ io_failed (deliver sN w ((n + 1) mod 2 ^ 64, o)) = false) as [Hw1 Hf1].
  { unfold deliver, write. cbn [fst snd]. rewrite Hf, Hw. destruct o; cbn [io_writes io_failed report]; done. }
  destruct (IH _ _ _ Hw1 Hf1 H) as (rs & Hn & -> & Hall). exists ((w, ((n + 1) mod 2 ^ 64, o)) :: rs). split; [cbn [map fst snd]; by rewrite Hn|]. split; [done|].
  intros s Hs. rewrite (Hany s Hs). cbn [deliver_all]. apply Hall. by rewrite !deliver_world.
Qed.
Lemma deliver_none rs : ∀ s, io_writes s = None → io_failed s = false →
  io_out (deliver_all s rs) = io_out s ++ texts (shown_texts (map snd rs)) ∧ io_reported (deliver_all s rs) = io_reported s ++ without_text (map snd rs).
Proof.
  induction rs as [|[w [n o]] rs IH]; intros s Hw Hf; [cbn; by rewrite !app_nil_r|]. cbn [deliver_all].
  assert (io_writes (deliver s w (n, o)) = None ∧ io_failed (deliver s w (n, o)) = false) as [Hw1 Hf1].
  { unfold deliver, write. cbn [fst snd]. rewrite Hf, Hw. destruct o; cbn [io_writes io_failed report]; done. }
  destruct (IH _ Hw1 Hf1) as [-> ->]. unfold deliver, write, shown_texts, without_text. cbn [fst snd map omap list_omap]. rewrite Hf, Hw, filter_cons. cbn [snd].
  destruct o as [t|]; cbn [report io_out io_reported texts map concat].
  - rewrite decide_False by done. split; [|done]. unfold texts. cbn [map concat]. by rewrite <- !app_assoc.
  - rewrite decide_True by done. split; [done|]. cbn [map fst]. by rewrite <- app_assoc.
Qed.
Lemma deliver_failed rs : ∀ s, io_failed s = true → io_out (deliver_all s rs) = io_out s ∧ io_reported (deliver_all s rs) = io_reported s ++ map fst (map snd rs).
Proof.
  induction rs as [|[w [n o]] rs IH]; intros s Hf; [cbn; by rewrite app_nil_r|]. cbn [deliver_all].
  assert (deliver s w (n, o) = report s w n) as -> by (unfold deliver; cbn [fst snd]; rewrite Hf; by destruct o).
  destruct (IH (report s w n) Hf) as [-> ->]. cbn [report io_out io_reported map fst snd]. by rewrite <- app_assoc.
Qed.
Lemma deliver_some rs : ∀ s k b, io_writes s = Some (k, b) → io_failed s = false →
  ∃ ok rest, map snd rs = ok ++ rest ∧ io_reported (deliver_all s rs) = io_reported s ++ without_text ok ++ map fst rest ∧
    ((rest = [] ∧ (length (shown_texts ok) ≤ k)%nat ∧ io_out (deliver_all s rs) = io_out s ++ texts (shown_texts ok)) ∨
     ∃ n t rest', rest = (n, Some t) :: rest' ∧ length (shown_texts ok) = k ∧
       io_out (deliver_all s rs) = io_out s ++ texts (shown_texts ok) ++ take b (t ++ [nl])).
Proof.
  induction rs as [|[w [n o]] rs IH]; intros s k b Hw Hf.
  { exists [], []. cbn. rewrite !app_nil_r. split_and!; [done|done|]. left. split_and!; [done|lia|done]. }
  cbn [deliver_all map snd]. destruct o as [t|].
  - destruct k as [|k].
    + exists [], ((n, Some t) :: map snd rs). split; [done|]. unfold deliver, write. cbn [fst snd]. rewrite Hf, Hw.
      destruct (deliver_failed rs (mkIO w (io_out s ++ take b (t ++ [nl])) (Some (0%nat, b)) true (io_reported s ++ [n])) eq_refl) as [Ho Hr].
      rewrite Ho, Hr. cbn [io_out io_reported map fst without_text app]. split; [rewrite <- app_assoc; done|]. right. exists n, t, (map snd rs). split; [done|]. split; [done|]. done.
    + unfold deliver, write. cbn [fst snd]. rewrite Hf, Hw.
      destruct (IH (mkIO w (io_out s ++ t ++ [nl]) (Some (k, b)) false (io_reported s)) k b eq_refl eq_refl) as (ok & rest & Hl & Hr & Ho).
      exists ((n, Some t) :: ok), rest. split; [by rewrite Hl|]. cbn [io_out io_reported] in *. split.
      { rewrite Hr. unfold without_text. rewrite filter_cons. by rewrite decide_False by done. }
      assert (∀ x, (io_out s ++ t ++ [nl]) ++ texts (shown_texts ok) ++ x = io_out s ++ texts (shown_texts ((n, Some t) :: ok)) ++ x) as Hx.
      { intros x. unfold texts, shown_texts. cbn [omap list_omap snd map concat]. by rewrite <- !app_assoc. }
      destruct Ho as [(-> & Hk & Ho)|(n' & t' & rest' & -> & Hk & Ho)].
      * left. split; [done|]. split; [unfold shown_texts in *; cbn [omap list_omap snd length]; lia|]. specialize (Hx []). rewrite !app_nil_r in Hx. by rewrite Ho.
      * right. exists n', t', rest'. split; [done|]. split; [unfold shown_texts in *; cbn [omap list_omap snd length]; lia|]. by rewrite Ho.
  - unfold deliver. cbn [fst snd]. destruct (IH (report s w n) k b Hw Hf) as (ok & rest & Hl & Hr & Ho).
    exists ((n, None) :: ok), rest. split; [by rewrite Hl|]. split.
    { rewrite Hr. cbn [report io_reported]. unfold without_text. rewrite filter_cons. rewrite decide_True by done. cbn [map fst]. by rewrite <- !app_assoc. }
    exact Ho.
Qed.
