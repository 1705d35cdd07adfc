(** * The command sawmill, from its arguments to its exit status: C78 (the arguments) and
    C79 (the program).

    [asks args o]: by the arguments [args] the flags have the values [o]; [asks_help]: help
    is asked for (Main.v, under "Specification").
    [sawmill lo up unpack yaml_of fmt fuel h env b args stdin readerr]: what the program
    does when it is run with the arguments [args] and the input [stdin], in the
    surroundings [b]; [Panic]: it crashes.
    [definition_says]: Yaml.v; [defines]: Builtins.v; [of_line]: ShareCmdProps.v. *)
From Verif Require Import CmdSem ShareCmd CmdProps ShareCmdProps YamlProps BuiltinsProps Main.
From Coq Require Import Lia.
Local Open Scope Z_scope.

(** ** C78 *)
(** The flags have the values asked for: the last setting of each, up to the first
    argument that is none; or help is asked for; anything else is refused. *)
Theorem C78_flags : ∀ args,
  (∀ o, parse_flags args defaults = Opts o ↔ asks args o) ∧
  (parse_flags args defaults = Help ↔ asks_help args) ∧
  (parse_flags args defaults = Bad ↔ (∀ o, ¬ asks args o) ∧ ¬ asks_help args).
Proof.
  intros args.
  assert (∀ o, asks args o → parse_flags args defaults = Opts o) as Ho.
  { intros o (l & others & Hl & He & Hv). apply (set_all_values _ _ _ _ Hl) in Hv. rewrite (settings_parse _ _ _ _ Hl), Hv. by apply parse_end. }
  assert (asks_help args → parse_flags args defaults = Help) as Hh.
  { intros (l & others & Hl & He). rewrite (settings_parse _ _ _ _ Hl). by apply parse_help. }
  destruct (parse_ends args defaults) as (l & others & Hl & Hp). destruct (parse_flags args defaults) as [o| |] eqn:E.
  - destruct Hp as [He Ho']. assert (asks args o) as Ha. { exists l, others. split; [done|]. split; [done|]. by apply (set_all_values _ _ _ _ Hl). }
    split_and!; [|by split; [|intros ?%Hh]|by split; [|intros [H _]; destruct (H o)]].
    intros o'. split; [by intros [= <-]|apply Ho].
  - assert (asks_help args) as Ha by by exists l, others. split_and!; [|done|by split; [|intros [_ H]]].
    intros o'. split; [done|]. apply Ho.
  - split_and!; [intros o'; split; [done|apply Ho]|by split; [|intros ?%Hh]|].
    split; [|done]. intros _. split; [by intros o ?%Ho|by intros ?%Hh].
Qed.
Print Assumptions C78_flags.
(** So the flags have one value, or none. *)
Theorem C78_one_meaning : ∀ args o o', asks args o → asks args o' → o = o' ∧ ¬ asks_help args.
Proof.
  intros args o o' H1 H2. destruct (C78_flags args) as (Ho & Hh & _). split; [|intros H3].
  - apply Ho in H1, H2. congruence.
  - apply Ho in H1. apply Hh in H3. congruence.
Qed.
Print Assumptions C78_one_meaning.
Example C78_ex : asks ["-p"; "a.yml"; "--cpuprofile=x"; "-p=b=c"; "-"; "-p"; "d"] (mkOpts "b=c" "localhost:9003" "x" "") ∧
  asks ["-p"; "-memprofile"; "--"; "-q"] (mkOpts "-memprofile" "localhost:9003" "" "") ∧
  asks_help ["-p"; "x"; "-h"] ∧
  parse_flags ["-p"] defaults = Bad ∧ parse_flags ["-q"] defaults = Bad ∧ parse_flags ["---p"; "x"] defaults = Bad.
Proof.
  split; [|split; [|split; [|done]]].
  - apply C78_flags. reflexivity.
  - apply C78_flags. reflexivity.
  - apply C78_flags. reflexivity.
Qed.

(** ** C79 *)
(** The processors a definition can use. *)
Definition available : list string := ["append"; "community_id"; "lowercase"; "remove"; "set"; "uppercase"].
Definition creatable (b : box) (p : string) : Prop := p = "" ∨ b_create b p = true.
(** The profile asked for with path [p], if any, can be written in full. *)
Definition fits (b : box) (p : string) (t : list ascii) : Prop := p = "" ∨ ∀ n, b_room b p = Some n → (length t ≤ n)%nat.
Lemma imported_registry lo up : ∃ reg, imports lo up imported reg.
Proof.
  assert (NoDup imported) as Hn by (apply (bool_decide_unpack _); reflexivity).
  assert (∀ x, x ∈ imported → x ∈ packages) as Hp by (unfold imported, packages; intros x; rewrite !elem_of_cons, elem_of_nil; tauto).
  destruct (C57_imports lo up imported Hn Hp) as (r & Hr & _). by exists r.
Qed.
Lemma create_ok b p fs : creatable b p → ∃ fs', create_profile b p fs = Some fs' ∧ ∀ q, fs' q = if String.eqb q p && negb (String.eqb p "") then Some [] else fs q.
Proof.
  unfold create_profile. intros H. destruct (String.eqb_spec p "") as [->|Hp].
  - exists fs. split; [done|]. intros q. by rewrite andb_false_r.
  - destruct H as [?| ->]; [done|]. eexists. split; [done|]. intros q. unfold put_file. cbn [negb]. by rewrite andb_true_r.
Qed.
Lemma create_fail b p fs : ¬ creatable b p → create_profile b p fs = None.
Proof.
  unfold create_profile, creatable. intros H. destruct (String.eqb_spec p "") as [->|Hp]; [tauto|]. destruct (b_create b p); [tauto|done].
Qed.
(** The files when the definition is read. *)
Lemma created b o : creatable b (o_cpu o) → creatable b (o_mem o) → ∃ fs1 fs,
  create_profile b (o_cpu o) (b_files b) = Some fs1 ∧ create_profile b (o_mem o) fs1 = Some fs ∧
  ∀ q, fs q = if negb (String.eqb q "") && (String.eqb q (o_cpu o) || String.eqb q (o_mem o)) then Some [] else b_files b q.
Proof.
  intros H1 H2. destruct (create_ok b _ (b_files b) H1) as (fs1 & E1 & F1). destruct (create_ok b _ fs1 H2) as (fs & E2 & F2).
  exists fs1, fs. split; [done|]. split; [done|]. intros q. rewrite F2, F1.
  destruct (String.eqb_spec q ""), (String.eqb_spec q (o_mem o)), (String.eqb_spec q (o_cpu o)), (String.eqb_spec (o_mem o) ""), (String.eqb_spec (o_cpu o) ""); cbn; congruence.
Qed.
Lemma sawmill_run lo up unpack yaml_of fmt f h env b args stdin readerr o : asks args o → ∃ reg, imports lo up imported reg ∧
  sawmill lo up unpack yaml_of fmt f h env b args stdin readerr = run_main unpack yaml_of fmt f reg h env b o stdin readerr.
Proof.
  intros Ha. destruct (imported_registry lo up) as (reg & Hi). exists reg. split; [done|]. unfold sawmill.
  destruct Hi as (_ & _ & ->). by rewrite (proj2 (proj1 (C78_flags args) o) Ha).
Qed.
Lemma on_show_spec lo up unpack reg c pl lg : imports lo up imported reg → New [] unpack reg c = Ok (inl pl) →
  NoDup (map fst (on_show c pl lg)) ∧
  ∀ m ty id v, (m, ty, id, v) ∈ on_show c pl lg ↔ valid_utf8 ty ∧ valid_utf8 id ∧ measured [] c ty id ∧ v = count id m lg.
Proof.
  intros Hi Hn. pose proof (New_collectors_keys [] unpack reg c pl 0 (procs_types (cf_procs c)) Hn) as Hk.
  destruct (register_spec (collectors 0 pl (procs_types (cf_procs c))) [] Hk) as [H1 H2]; [constructor|]. unfold on_show. split.
  { rewrite map_map. cbn [fst]. exact H1. }
  intros m ty id v. rewrite elem_of_list_fmap. split.
  - intros ([k m' ty' id'] & Heq & Hin). injection Heq as -> -> -> ->. apply H2 in Hin as [Hin|(Hin & Hd & _)]; [by apply elem_of_nil in Hin|].
    apply (New_collectors [] unpack reg c pl _ _ _ _ _ Hn) in Hin as [-> Hm]. apply describable_iff in Hd as [Hv1 Hv2]. done.
  - intros (Hv1 & Hv2 & Hm & ->). exists (mkColl 0 m ty id). split; [done|]. apply H2. right.
    split; [by apply (New_collectors [] unpack reg c pl _ _ _ _ _ Hn)|]. split; [by apply describable_iff|]. cbn. by apply not_elem_of_nil.
Qed.
(** With a sound definition, the program does what the definition says to the lines of
    its input.  For the n-th line that is not blank it writes the JSON of what the
    pipeline makes of the event with its number and text, or reports the number if the
    pipeline fails or the result cannot be written; the metrics endpoint shows the
    counters of the processors, the global handlers excepted; the status is 0 unless the
    input cannot be read to the end, has a line too long, or a profile asked for cannot be
    written.  It crashes only if a line becomes an event that contains itself. *)
Theorem C79_does_what_is_written : ∀ lo up unpack yaml_of fmt h env b args stdin readerr o text n c p ls,
  unpacks unpack h → float_format fmt →
  asks args o → creatable b (o_cpu o) → creatable b (o_mem o) →
  o_pipeline o ∉ [""; o_cpu o; o_mem o] → b_files b (o_pipeline o) = Some text →
  yaml_of text = FirstDocument n → definition_says n (Some c) → defines lo up [] unpack available h c p →
  Forall (λ c, match c with BSet _ t => in_range t | _ => True end) (pipe_confs p) →
  text_lines stdin ls →
  ((∀ x G counted, x ∈ numbered (upto_long ls) → of_line p x = Gives (G, None, counted) → ¬ circular G) →
   ∃ N r os, (∀ f, (N ≤ f)%nat → sawmill lo up unpack yaml_of fmt f h env b args stdin readerr = Ok r) ∧
    Forall2 (λ x o,
      match of_line p x with
      | Gives (G, None, _) =>
          (∀ m, writable_as G m → ∃ text j, o = Some text ∧ document text j ∧ shown (TObj m) j) ∧
          (unwritable G → o = None)
      | Gives (_, Some _, _) => o = None
      | Crashes | Shares => False
      end) (numbered (upto_long ls)) os ∧
    r_out r = concat (map (λ o, match o with Some t => t ++ [nl] | None => [] end) os) ∧
    r_reported r = (filter (λ x, x.2 = None) (zip (numbered (upto_long ls)) os)).*1.*1 ∧
    NoDup (map fst (r_counts r)) ∧
    (∀ m ty id v, (m, ty, id, v) ∈ r_counts r ↔ valid_utf8 ty ∧ valid_utf8 id ∧ measured [] c ty id ∧
      v = count id m (concat (map (λ x, match of_line p x with Gives (_, _, counted) => counted | _ => [] end) (numbered (upto_long ls))))) ∧
    (r_status r = 0 ∨ r_status r = 1) ∧
    (r_status r = 0 ↔ readerr = false ∧ Forall (λ l, Z.of_nat (length l) < 65536) ls ∧
      fits b (o_mem o) (b_mem b) ∧ fits b (o_cpu o) (b_cpu b))) ∧
  (∀ x G counted, x ∈ numbered (upto_long ls) → of_line p x = Gives (G, None, counted) → circular G →
   ∀ f, sawmill lo up unpack yaml_of fmt f h env b args stdin readerr = Panic).
Proof.
  intros lo up unpack yaml_of fmt h env b args stdin readerr o text n c p ls Hu Hf Ha Hc1 Hc2 Hp Hfile Hy Hn Hd Hr Hls.
  destruct (created b o Hc1 Hc2) as (fs1 & fs & E1 & E2 & Hfs).
  apply not_elem_of_cons in Hp as [Hp1 Hp]. apply not_elem_of_cons in Hp as [Hp2 Hp]. apply not_elem_of_cons in Hp as [Hp3 _].
  apply String.eqb_neq in Hp1, Hp2, Hp3.
  assert (loadPipeline (definition_file yaml_of (o_pipeline o) fs) = Some (Some c)) as Hl.
  { apply C75_loads. exists n. split; [|done]. unfold definition_file, read_file. rewrite Hp1, Hfs, Hp1, Hp2, Hp3. cbn. by rewrite Hfile. }
  destruct (imported_registry lo up) as (reg & Hi).
  assert (∀ f, sawmill lo up unpack yaml_of fmt f h env b args stdin readerr = run_main unpack yaml_of fmt f reg h env b o stdin readerr) as Hrun.
  { intros f. destruct (sawmill_run lo up unpack yaml_of fmt f h env b args stdin readerr o Ha) as (reg' & Hi' & ->).
    destruct Hi as (_ & _ & Hi), Hi' as (_ & _ & Hi'). assert (reg' = reg) as -> by congruence. done. }
  destruct (proj2 (C57_new_builds_what_is_defined lo up _ [] unpack imported reg h c Hi Hu) p Hd) as (pl & Hnew & Hpl).
  destruct (C56_command fmt p pl (mkWorld h [] env []) stdin readerr ls Hf Hpl Hr Hls) as [C1 C2]. split.
  - intros Hnc. destruct (C1 Hnc) as (N & s & err & os & Hs & Hos & Hout & Hrep & Herr & Hlog). clear C1 C2. cbn [w_log app] in Hlog.
    assert (∀ st fs, let r := mkResult st (io_out s) (io_reported s) (on_show c pl (w_log (io_world s))) fs in
      (st = 0 ∨ st = 1) → (st = 0 ↔ readerr = false ∧ Forall (λ l, Z.of_nat (length l) < 65536) ls ∧ fits b (o_mem o) (b_mem b) ∧ fits b (o_cpu o) (b_cpu b)) →
      (∀ f, (N ≤ f)%nat → run_main unpack yaml_of fmt f reg h env b o stdin readerr = Ok r) → 
      ∃ N r os, (∀ f, (N ≤ f)%nat → sawmill lo up unpack yaml_of fmt f h env b args stdin readerr = Ok r) ∧
        Forall2 (λ x o, match of_line p x with
          | Gives (G, None, _) => (∀ m, writable_as G m → ∃ text j, o = Some text ∧ document text j ∧ shown (TObj m) j) ∧ (unwritable G → o = None)
          | Gives (_, Some _, _) => o = None
          | Crashes | Shares => False
          end) (numbered (upto_long ls)) os ∧
        r_out r = concat (map (λ o, match o with Some t => t ++ [nl] | None => [] end) os) ∧
        r_reported r = (filter (λ x, x.2 = None) (zip (numbered (upto_long ls)) os)).*1.*1 ∧
        NoDup (map fst (r_counts r)) ∧
        (∀ m ty id v, (m, ty, id, v) ∈ r_counts r ↔ valid_utf8 ty ∧ valid_utf8 id ∧ measured [] c ty id ∧
          v = count id m (concat (map (λ x, match of_line p x with Gives (_, _, counted) => counted | _ => [] end) (numbered (upto_long ls))))) ∧
        (r_status r = 0 ∨ r_status r = 1) ∧
        (r_status r = 0 ↔ readerr = false ∧ Forall (λ l, Z.of_nat (length l) < 65536) ls ∧ fits b (o_mem o) (b_mem b) ∧ fits b (o_cpu o) (b_cpu b))) as Hgoal.
    { intros st fs' r Hst1 Hst2 Hrr. exists N, r, os. split; [intros f Hfu; rewrite Hrun; by apply Hrr|].
      destruct (on_show_spec lo up unpack reg c pl (w_log (io_world s)) Hi Hnew) as [Hs1 Hs2].
      split; [exact Hos|]. split; [exact Hout|]. split; [exact Hrep|]. split; [exact Hs1|]. split; [|split; [exact Hst1|exact Hst2]].
      intros m ty id v. rewrite <- Hlog. apply Hs2. }
    assert (∀ f, (N ≤ f)%nat → run_main unpack yaml_of fmt f reg h env b o stdin readerr =
      let r := λ status fs, mkResult status (io_out s) (io_reported s) (on_show c pl (w_log (io_world s))) fs in
      if err : bool then Ok (r 1 fs)
      else match write_profile b (o_mem o) (b_mem b) fs with
           | (fs, false) => Ok (r 1 fs)
           | (fs, true) => match write_profile b (o_cpu o) (b_cpu b) fs with (fs, false) => Ok (r 1 fs) | (fs, true) => Ok (r 0 fs) end
           end) as Hm.
    { intros f Hfu. unfold run_main. rewrite E1, E2, Hl, Hnew, (Hs f Hfu). done. }
    assert (err = false ↔ readerr = false ∧ Forall (λ l, Z.of_nat (length l) < 65536) ls) as He.
    { rewrite <- not_true_iff_false, Herr, <- not_true_iff_false. split.
      - intros H. split; [tauto|]. apply Forall_forall. intros l Hin. destruct (Z.lt_ge_cases (Z.of_nat (length l)) 65536); [done|].
        destruct H. right. apply Exists_exists. by exists l.
      - intros [H1 H2] [?|H]; [done|]. apply Exists_exists in H as (l & Hin & Hl'). rewrite Forall_forall in H2. specialize (H2 _ Hin). cbv beta in H2. lia. }
    assert (∀ p t fs, ∃ fs', (write_profile b p t fs = (fs', true) ∧ fits b p t) ∨ (write_profile b p t fs = (fs', false) ∧ ¬ fits b p t)) as Hw.
    { clear. intros p t fs. unfold write_profile, fits. destruct (String.eqb_spec p "") as [->|Hp]; [exists fs; left; split; [done|by left]|].
      destruct (b_room b p) as [k|] eqn:E; [destruct (Nat.ltb_spec k (length t))|]; eexists.
      - right. split; [reflexivity|]. intros [?|H']; [done|]. specialize (H' _ eq_refl). lia.
      - left. split; [reflexivity|]. right. by intros ? [= <-].
      - left. split; [reflexivity|]. by right. }
    destruct err.
    { apply (Hgoal 1 fs); [by right| |exact Hm]. split; [done|]. intros (H1 & H2 & _). by assert (true = false) by (apply He; done). }
    destruct (proj1 He eq_refl) as [He1 He2]. destruct (Hw (o_mem o) (b_mem b) fs) as (fs2 & [[Hw1 Hfit1]|[Hw1 Hfit1]]); rewrite Hw1 in Hm.
    2:{ apply (Hgoal 1 fs2); [by right| |exact Hm]. split; [done|]. by intros (_ & _ & H & _). }
    destruct (Hw (o_cpu o) (b_cpu b) fs2) as (fs3 & [[Hw2 Hfit2]|[Hw2 Hfit2]]); rewrite Hw2 in Hm.
    2:{ apply (Hgoal 1 fs3); [by right| |exact Hm]. split; [done|]. by intros (_ & _ & _ & H). }
    apply (Hgoal 0 fs3); [by left| |exact Hm]. by split.
  - intros x G counted Hx Hg Hci f. rewrite Hrun. unfold run_main. rewrite E1, E2, Hl, Hnew. by rewrite (C2 x G counted Hx Hg Hci f).
Qed.
Print Assumptions C79_does_what_is_written.
(** Without one it stops with status 1, before it reads the input: nothing is written to
    standard output, nothing is reported for a line.  [gives_definition]: the file opens
    and holds a document, as things are after the profiles' files are created. *)
Definition gives_definition (yaml_of : list ascii → yfile) (b : box) (o : opts) (n : ynode) : Prop :=
  o_pipeline o ≠ "" ∧ ∃ text, yaml_of text = FirstDocument n ∧
    ((o_pipeline o ∉ [o_cpu o; o_mem o] ∧ b_files b (o_pipeline o) = Some text) ∨ (o_pipeline o ∈ [o_cpu o; o_mem o] ∧ text = [])).
Lemma definition_read yaml_of b o fs n :
  (∀ q, fs q = if negb (String.eqb q "") && (String.eqb q (o_cpu o) || String.eqb q (o_mem o)) then Some [] else b_files b q) →
  definition_file yaml_of (o_pipeline o) fs = FirstDocument n → gives_definition yaml_of b o n.
Proof.
  intros Hfs H. unfold definition_file, read_file in H. destruct (String.eqb_spec (o_pipeline o) "") as [|Hp]; [done|].
  destruct (fs (o_pipeline o)) as [text|] eqn:E; [|done]. split; [done|]. exists text. split; [done|]. rewrite Hfs in E.
  destruct (String.eqb_spec (o_pipeline o) ""); [done|]. cbn [negb andb] in E. rewrite !elem_of_cons, elem_of_nil.
  destruct (String.eqb_spec (o_pipeline o) (o_cpu o)), (String.eqb_spec (o_pipeline o) (o_mem o)); cbn in E; naive_solver.
Qed.
Theorem C79_stops : ∀ lo up unpack yaml_of fmt f h env b args stdin readerr o,
  unpacks unpack h → asks args o →
  (creatable b (o_cpu o) → creatable b (o_mem o) → ∀ n, gives_definition yaml_of b o n →
    ¬ definition_says n None ∧ ∀ c p, definition_says n (Some c) → ¬ defines lo up [] unpack available h c p) →
  ∃ fs, sawmill lo up unpack yaml_of fmt f h env b args stdin readerr = Ok (mkResult 1 [] [] [] fs).
Proof.
  intros lo up unpack yaml_of fmt f h env b args stdin readerr o Hu Ha Hno.
  destruct (sawmill_run lo up unpack yaml_of fmt f h env b args stdin readerr o Ha) as (reg & Hi & ->). unfold run_main.
  assert (∀ p, creatable b p ∨ ¬ creatable b p) as Hdec.
  { intros p. unfold creatable. destruct (string_dec p ""), (b_create b p); tauto || (right; intros [?|?]; done). }
  destruct (Hdec (o_cpu o)) as [Hc1|Hc1]; [|rewrite create_fail by done; by eexists].
  destruct (Hdec (o_mem o)) as [Hc2|Hc2].
  2:{ destruct (create_ok b _ (b_files b) Hc1) as (fs1 & -> & _). rewrite create_fail by done. by eexists. }
  destruct (created b o Hc1 Hc2) as (fs1 & fs & -> & -> & Hfs).
  destruct (loadPipeline (definition_file yaml_of (o_pipeline o) fs)) as [c|] eqn:El; [|by eexists].
  apply C75_loads in El as (n & Hn & Hs). apply (definition_read _ _ _ _ _ Hfs) in Hn.
  destruct (Hno Hc1 Hc2 n Hn) as [H1 H2]. destruct c as [c|]; [|done].
  pose proof (New_returns [] unpack reg c (yaml_builtins_sound _ _ _ _ _ _ Hi Hu)) as Hr.
  destruct (New [] unpack reg c) as [[pl|e]|] eqn:En; [|by eexists|done].
  destruct (proj1 (C57_new_builds_what_is_defined lo up _ [] unpack imported reg h c Hi Hu) pl En) as (p & Hp & _). by destruct (H2 c p).
Qed.
Print Assumptions C79_stops.
(** But it crashes if there is a document that is empty or null. *)
Theorem C79_null_definition_refuted : ∀ lo up unpack yaml_of fmt f h env b args stdin readerr o text t,
  asks args o → creatable b (o_cpu o) → creatable b (o_mem o) →
  o_pipeline o ∉ [""; o_cpu o; o_mem o] → b_files b (o_pipeline o) = Some text → yaml_of text = FirstDocument (YLeaf t LNull) →
  sawmill lo up unpack yaml_of fmt f h env b args stdin readerr = Panic.
Proof.
  intros lo up unpack yaml_of fmt f h env b args stdin readerr o text t Ha Hc1 Hc2 Hp Hfile Hy.
  destruct (sawmill_run lo up unpack yaml_of fmt f h env b args stdin readerr o Ha) as (reg & _ & ->). unfold run_main.
  destruct (created b o Hc1 Hc2) as (fs1 & fs & -> & -> & Hfs).
  apply not_elem_of_cons in Hp as [Hp1 Hp]. apply not_elem_of_cons in Hp as [Hp2 Hp]. apply not_elem_of_cons in Hp as [Hp3 _].
  apply String.eqb_neq in Hp1, Hp2, Hp3. unfold definition_file, read_file. rewrite Hp1, Hfs, Hp1, Hp2, Hp3. cbn [negb orb andb]. by rewrite Hfile, Hy.
Qed.
Print Assumptions C79_null_definition_refuted.
(** Arguments that ask for help or are wrong: nothing is done. *)
Theorem C79_usage : ∀ lo up unpack yaml_of fmt f h env b args stdin readerr,
  (asks_help args → sawmill lo up unpack yaml_of fmt f h env b args stdin readerr = Ok (mkResult 0 [] [] [] (b_files b))) ∧
  ((∀ o, ¬ asks args o) → ¬ asks_help args →
    sawmill lo up unpack yaml_of fmt f h env b args stdin readerr = Ok (mkResult 2 [] [] [] (b_files b))).
Proof.
  intros lo up unpack yaml_of fmt f h env b args stdin readerr. destruct (imported_registry lo up) as (reg & _ & _ & Hi).
  destruct (C78_flags args) as (_ & H1 & H2). unfold sawmill. rewrite Hi. split.
  - intros H. by rewrite (proj2 H1 H).
  - intros Ho Hh. by rewrite (proj2 H2 (conj Ho Hh)).
Qed.
Print Assumptions C79_usage.

(** The files.  Only the profiles' files change. *)
Lemma write_other b p t fs fs' ok q : write_profile b p t fs = (fs', ok) → q ≠ p → fs' q = fs q.
Proof.
  unfold write_profile. intros H Hq. apply String.eqb_neq in Hq. destruct (String.eqb p ""); [congruence|].
  destruct (b_room b p) as [n|]; [destruct (_ <? _)%nat|]; injection H as <- _; unfold put_file; by rewrite Hq.
Qed.
Lemma create_other b p fs fs' q : create_profile b p fs = Some fs' → q ≠ p → fs' q = fs q.
Proof.
  unfold create_profile. intros H Hq. apply String.eqb_neq in Hq. destruct (String.eqb p ""); [congruence|].
  destruct (b_create b p); [|done]. injection H as <-. unfold put_file. by rewrite Hq.
Qed.
Theorem C79_other_files_kept : ∀ lo up unpack yaml_of fmt f h env b args stdin readerr r,
  sawmill lo up unpack yaml_of fmt f h env b args stdin readerr = Ok r →
  ∀ q, (∀ o, asks args o → q ∉ [o_cpu o; o_mem o]) → r_files r q = b_files b q.
Proof.
  intros lo up unpack yaml_of fmt f h env b args stdin readerr r H q Hq. unfold sawmill in H.
  destruct (init_all lo up imported NewRegistry) as [reg|]; [|done]. destruct (parse_flags args defaults) as [o| |] eqn:E; [|by injection H as <-..].
  apply (proj1 (C78_flags args)) in E. specialize (Hq o E).
  apply not_elem_of_cons in Hq as [Hq1 Hq]. apply not_elem_of_cons in Hq as [Hq2 _]. unfold run_main in H.
  destruct (create_profile b (o_cpu o) (b_files b)) as [fs1|] eqn:E1; [|by injection H as <-].
  destruct (create_profile b (o_mem o) fs1) as [fs|] eqn:E2; [|injection H as <-; by apply (create_other _ _ _ _ _ E1)].
  assert (fs q = b_files b q) as Hfs by (rewrite (create_other _ _ _ _ _ E2 Hq2); by apply (create_other _ _ _ _ _ E1)).
  destruct (loadPipeline _) as [[c|]|]; [|done|by injection H as <-]. destruct (New _ _ _ c) as [[pl|e]|]; [|by injection H as <-|done].
  destruct (processInput _ _ _ _ _ _ _) as [[s [|]]|]; [by injection H as <-| |done].
  destruct (write_profile b (o_mem o) (b_mem b) fs) as [fs2 [|]] eqn:E3; [|injection H as <-; by rewrite <- Hfs, <- (write_other _ _ _ _ _ _ _ E3 Hq2)].
  destruct (write_profile b (o_cpu o) (b_cpu b) fs2) as [fs3 ok] eqn:E4.
  assert (r_files r = fs3) as -> by (destruct ok; by injection H as <-).
  by rewrite (write_other _ _ _ _ _ _ _ E4 Hq1), (write_other _ _ _ _ _ _ _ E3 Hq2).
Qed.
Print Assumptions C79_other_files_kept.
(** A run that ends with status 0 leaves the profiles asked for, if they are not asked
    for in the same file. *)
Lemma write_whole b p t fs fs' : write_profile b p t fs = (fs', true) → p ≠ "" → fs p = Some [] → fs' p = Some t.
Proof.
  unfold write_profile. intros H Hp Hfs. rewrite (proj2 (String.eqb_neq _ _) Hp), Hfs in H. rewrite drop_nil, app_nil_r in H.
  destruct (b_room b p) as [n|]; [destruct (_ <? _)%nat; [done|]|]; injection H as <-; unfold put_file; by rewrite String.eqb_refl.
Qed.
Theorem C79_profiles_written : ∀ lo up unpack yaml_of fmt f h env b args stdin readerr r o,
  sawmill lo up unpack yaml_of fmt f h env b args stdin readerr = Ok r → r_status r = 0 → asks args o → o_cpu o ≠ o_mem o →
  (o_cpu o ≠ "" → r_files r (o_cpu o) = Some (b_cpu b)) ∧ (o_mem o ≠ "" → r_files r (o_mem o) = Some (b_mem b)).
Proof.
  intros lo up unpack yaml_of fmt f h env b args stdin readerr r o H Hst Ha Hne.
  destruct (sawmill_run lo up unpack yaml_of fmt f h env b args stdin readerr o Ha) as (reg & _ & Hr). rewrite Hr in H. clear Hr. unfold run_main in H.
  destruct (create_profile b (o_cpu o) (b_files b)) as [fs1|] eqn:E1; [|by injection H as <-].
  destruct (create_profile b (o_mem o) fs1) as [fs|] eqn:E2; [|by injection H as <-].
  assert ((o_cpu o ≠ "" → fs (o_cpu o) = Some []) ∧ (o_mem o ≠ "" → fs (o_mem o) = Some [])) as [F1 F2].
  { split; intros Hp; pose proof (proj2 (String.eqb_neq _ _) Hp) as Hp'.
    - rewrite (create_other _ _ _ _ _ E2 Hne). unfold create_profile in E1. rewrite Hp' in E1. destruct (b_create b (o_cpu o)); [|done].
      injection E1 as <-. unfold put_file. by rewrite String.eqb_refl.
    - unfold create_profile in E2. rewrite Hp' in E2. destruct (b_create b (o_mem o)); [|done].
      injection E2 as <-. unfold put_file. by rewrite String.eqb_refl. }
  destruct (loadPipeline _) as [[c|]|]; [|done|by injection H as <-]. destruct (New _ _ _ c) as [[pl|e]|]; [|by injection H as <-|done].
  destruct (processInput _ _ _ _ _ _ _) as [[s [|]]|]; [by injection H as <-| |done].
  destruct (write_profile b (o_mem o) (b_mem b) fs) as [fs2 [|]] eqn:E3; [|by injection H as <-].
  destruct (write_profile b (o_cpu o) (b_cpu b) fs2) as [fs3 [|]] eqn:E4; [|by injection H as <-].
  injection H as <-. cbn [r_files]. split; intros Hp.
  - apply (write_whole _ _ _ _ _ E4 Hp). rewrite (write_other _ _ _ _ _ _ _ E3 Hne). by apply F1.
  - rewrite (write_other _ _ _ _ _ _ _ E4 (not_eq_sym Hne)). apply (write_whole _ _ _ _ _ E3 Hp). by apply F2.
Qed.
Print Assumptions C79_profiles_written.
(** One that ends because the input cannot be read to its end (a line too long is
    enough) leaves them empty: log.Fatal skips the deferred calls. *)
Theorem C79_profiles_lost_refuted : ∀ lo up unpack yaml_of fmt f h env b args stdin r o,
  sawmill lo up unpack yaml_of fmt f h env b args stdin true = Ok r → asks args o →
  creatable b (o_cpu o) → creatable b (o_mem o) →
  r_status r = 1 ∧ ∀ q, q ∈ [o_cpu o; o_mem o] → q ≠ "" → r_files r q = Some [].
Proof.
  intros lo up unpack yaml_of fmt f h env b args stdin r o H Ha Hc1 Hc2.
  destruct (sawmill_run lo up unpack yaml_of fmt f h env b args stdin true o Ha) as (reg & _ & Hr). rewrite Hr in H. clear Hr. unfold run_main in H.
  destruct (created b o Hc1 Hc2) as (fs1 & fs & E1 & E2 & Hfs). rewrite E1, E2 in H.
  assert (∀ q, q ∈ [o_cpu o; o_mem o] → q ≠ "" → fs q = Some []) as Hq.
  { intros q Hin Hq. rewrite Hfs. apply String.eqb_neq in Hq. rewrite Hq. rewrite !elem_of_cons, elem_of_nil in Hin.
    destruct Hin as [->|[->|[]]]; rewrite String.eqb_refl; by rewrite ?orb_true_r. }
  destruct (loadPipeline _) as [[c|]|]; [|done|by injection H as <-]. destruct (New _ _ _ c) as [[pl|e]|]; [|by injection H as <-|done].
  destruct (processInput _ _ _ _ _ _ _) as [[s err]|] eqn:Ep; [|done].
  assert (err = true) as ->. { unfold processInput in Ep. destruct (scan _ _ _). destruct (process_lines _ _ _ _ _ _); [|done]. injection Ep as _ <-. apply orb_true_r. }
  by injection H as <-.
Qed.
Print Assumptions C79_profiles_lost_refuted.
(** The file of the definition is not safe: named for a profile too, it is emptied before
    it is read. *)
Theorem C79_definition_kept_refuted : ∀ lo up unpack yaml_of fmt f h env b args stdin readerr o,
  unpacks unpack h → yaml_of [] = NoDocument →
  asks args o → creatable b (o_cpu o) → creatable b (o_mem o) → o_pipeline o ≠ "" → o_pipeline o ∈ [o_cpu o; o_mem o] →
  ∃ fs, sawmill lo up unpack yaml_of fmt f h env b args stdin readerr = Ok (mkResult 1 [] [] [] fs) ∧ fs (o_pipeline o) = Some [].
Proof.
  intros lo up unpack yaml_of fmt f h env b args stdin readerr o Hu Hy Ha Hc1 Hc2 Hp Hin.
  destruct (sawmill_run lo up unpack yaml_of fmt f h env b args stdin readerr o Ha) as (reg & _ & ->). unfold run_main.
  destruct (created b o Hc1 Hc2) as (fs1 & fs & -> & -> & Hfs).
  assert (fs (o_pipeline o) = Some []) as Hf.
  { rewrite Hfs. rewrite (proj2 (String.eqb_neq _ _) Hp). rewrite !elem_of_cons, elem_of_nil in Hin.
    destruct Hin as [<-|[<-|[]]]; rewrite String.eqb_refl; by rewrite ?orb_true_r. }
  unfold definition_file, read_file. rewrite (proj2 (String.eqb_neq _ _) Hp), Hf, Hy. cbn. by exists fs.
Qed.
Print Assumptions C79_definition_kept_refuted.

(** Nor does status 0 mean that any line was processed.  A definition with one processor
    that lowercases [field], and two lines of input: *)
Definition ex_m_doc (field : string) : ynode := YMap
  [(str "id", str "p"); (str "processors", YSeq [YMap [(str "lowercase", YMap [(str "field", str field)])]])].
Definition ex_m_config (field : string) : config ymap := mkConfig "p" "" [[("lowercase", Some (OptCfg "" "" [] [("field", VStr field)]))]] [].
Definition ex_m_pipe (field : string) : bpipe := mkBPipe [BProc "p.processors[0].lowercase" false false [] (BLowercase ex_y_lo field field)] [].
Definition ex_m_yaml (field : string) (text : list ascii) : yfile := match text with [] => NoDocument | _ => FirstDocument (ex_m_doc field) end.
Definition ex_m_box : box := mkBox (λ p, if String.eqb p "def.yml" then Some ["x"%char] else None) (λ _, true) (λ _, None) ["c"%char] ["m"%char].
Definition ex_m_input : list ascii := list_ascii_of_string "A" ++ [nl; nl] ++ list_ascii_of_string "b" ++ [nl].
Definition ex_m_run (field : string) : Outcome result :=
  sawmill ex_y_lo ex_y_lo ex_y_unpack (ex_m_yaml field) exact_decimal 9 (mkHeap [] []) [] ex_m_box ["-p"; "def.yml"; "-memprofile=mem"] ex_m_input false.
Theorem C79_failed_lines_refuted : ∃ fs,
  ex_m_run "no.such.field" = Ok (mkResult 0 [] [1; 3]
    [(MDiscarded, "lowercase", "p.processors[0].lowercase", 0%nat); (MErrors, "lowercase", "p.processors[0].lowercase", 2%nat);
     (MIn, "lowercase", "p.processors[0].lowercase", 2%nat); (MOut, "lowercase", "p.processors[0].lowercase", 0%nat)] fs).
Proof. eexists. vm_compute. reflexivity. Qed.
Print Assumptions C79_failed_lines_refuted.
(** The hypotheses of C79_does_what_is_written are met, and its result is as expected. *)
Example C79_ex : let o := mkOpts "def.yml" "localhost:9003" "" "mem" in
  unpacks ex_y_unpack (mkHeap [] []) ∧ asks ["-p"; "def.yml"; "-memprofile=mem"] o ∧
  creatable ex_m_box (o_cpu o) ∧ creatable ex_m_box (o_mem o) ∧ o_pipeline o ∉ [""; o_cpu o; o_mem o] ∧
  b_files ex_m_box (o_pipeline o) = Some ["x"%char] ∧
  (∀ field, ex_m_yaml field ["x"%char] = FirstDocument (ex_m_doc field) ∧ definition_says (ex_m_doc field) (Some (ex_m_config field)) ∧
     defines ex_y_lo ex_y_lo [] ex_y_unpack available (mkHeap [] []) (ex_m_config field) (ex_m_pipe field)) ∧
  match ex_m_run "event.original" with
  | Ok r => r_status r = 0 ∧ r_reported r = [] ∧
      r_out r = list_ascii_of_string "{""@metadata"":{""line_number"":1},""event"":{""original"":""a""}}" ++ [nl] ++
                list_ascii_of_string "{""@metadata"":{""line_number"":3},""event"":{""original"":""b""}}" ++ [nl] ∧
      r_files r "mem" = Some ["m"%char] ∧ (MOut, "lowercase", "p.processors[0].lowercase", 2%nat) ∈ r_counts r
  | Panic => False
  end.
Proof.
  intros o. split; [|split; [|split; [|split; [|split; [|split; [|split]]]]]].
  - intros ty m v. unfold ex_y_unpack. destruct (String.eqb_spec ty "lowercase.Config") as [->|?]; [|done].
    destruct (mget "field" m) as [[]|]; try done. intros [= <-]. done.
  - apply C78_flags. reflexivity.
  - by left.
  - by right.
  - cbn. rewrite !not_elem_of_cons. split_and!; try done. by apply not_elem_of_nil.
  - reflexivity.
  - intros field. split; [done|]. split; [by apply config_iff|]. split; [done|]. split; [|constructor].
    constructor; [|constructor]. refine (de_entry ex_y_lo ex_y_lo [] ex_y_unpack imported (mkHeap [] []) "p.processors" 0 "lowercase"
      (Some (OptCfg "" "" [] [("field", VStr field)])) (CfLowercase field field false) _ false false [] _ _ _ _ _ _).
    + unfold imported. rewrite !elem_of_cons. tauto.
    + done.
    + constructor.
    + split; [done|]. by inversion 1.
    + split; [done|]. by inversion 1.
    + constructor.
  - vm_compute. split_and!; try reflexivity. repeat (first [left; reflexivity | right]).
Qed.
