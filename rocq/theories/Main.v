(** * cmd/sawmill/sawmill.go: main, from the arguments to the exit status. *)
From Verif Require Export Yaml Builtins Cmd Prom.
Local Open Scope Z_scope.

(** ** The flags: sawmill.go:47-60 and package flag of the Go library *)
Record opts : Type := mkOpts { o_pipeline : string; o_metrics : string; o_cpu : string; o_mem : string }.
(** sawmill.go:54-60 init: the names and the values when not given. *)
Definition defaults : opts := mkOpts "" "localhost:9003" "" "".
Definition defined_flag (n : string) : bool :=
  String.eqb n "p" || String.eqb n "metrics-addr" || String.eqb n "cpuprofile" || String.eqb n "memprofile".
Definition set_flag (n v : string) (o : opts) : opts :=
  if String.eqb n "p" then mkOpts v (o_metrics o) (o_cpu o) (o_mem o)
  else if String.eqb n "metrics-addr" then mkOpts (o_pipeline o) v (o_cpu o) (o_mem o)
  else if String.eqb n "cpuprofile" then mkOpts (o_pipeline o) (o_metrics o) v (o_mem o)
  else mkOpts (o_pipeline o) (o_metrics o) (o_cpu o) v.
(** The name, up to the first "=" if it is not the first character (flag.go parseOne). *)
Fixpoint cut_rest (s : string) : string * option string :=
  match s with
  | "" => ("", None)
  | String c s' => if Ascii.eqb c "="%char then ("", Some s') else let '(n, v) := cut_rest s' in (String c n, v)
  end.
Inductive parsed : Type := Opts (o : opts) | Help | Bad.
(** flag.go FlagSet.Parse with parseOne and ExitOnError: [Help]: usage is printed, status
    0; [Bad]: an error and usage are printed, status 2.  Arguments after the flags are
    left; main (sawmill.go:62-101) ignores them. *)
Fixpoint parse_flags (args : list string) (o : opts) : parsed :=
  match args with
  | [] => Opts o
  | s :: rest =>
      match s with
      | String d (String c t) =>
          if negb (Ascii.eqb d "-"%char) then Opts o
          else
            match (if Ascii.eqb c "-"%char then t else String c t) with
            | "" => Opts o (* "--" *)
            | String c1 name =>
                if Ascii.eqb c1 "-"%char || Ascii.eqb c1 "="%char then Bad
                else
                  let '(n, v) := cut_rest name in
                  let n := String c1 n in
                  if negb (defined_flag n) then if String.eqb n "help" || String.eqb n "h" then Help else Bad
                  else
                    match v with
                    | Some v => parse_flags rest (set_flag n v o)
                    | None => match rest with [] => Bad | v :: rest' => parse_flags rest' (set_flag n v o) end
                    end
            end
      | _ => Opts o (* fewer than two bytes *)
      end
  end.

(** ** The files *)
(** What can be read from the file of a path, if it can be opened.  Simplification: a path
    stands for one file, two paths for different ones. *)
Definition files : Type := string → option (list ascii).
Definition put_file (p : string) (t : list ascii) (fs : files) : files := λ q, if String.eqb q p then Some t else fs q.
(** os.Open of an empty path fails. *)
Definition read_file (p : string) (fs : files) : option (list ascii) := if String.eqb p "" then None else fs p.
(** What the program meets. *)
Record box : Type := mkBox {
  b_files : files;
  b_create : string → bool;        (* os.Create(path) succeeds *)
  b_room : string → option nat;    (* None: everything written to it arrives; Some n: n bytes *)
  b_cpu : list ascii;              (* the CPU profile, if one is taken *)
  b_mem : list ascii               (* the heap profile *)
}.
(** sawmill.go:158-162 bufferedFileWriter: os.Create makes the file empty. *)
Definition create_profile (b : box) (p : string) (fs : files) : option files :=
  if String.eqb p "" then Some fs else if b_create b p then Some (put_file p [] fs) else None.
(** Writing the profile from the start of the file, sawmill.go:163-170; the flag: it all
    arrived. *)
Definition write_profile (b : box) (p : string) (t : list ascii) (fs : files) : files * bool :=
  if String.eqb p "" then (fs, true)
  else
    let old := match fs p with Some l => l | None => [] end in
    match b_room b p with
    | Some n => if (n <? length t)%nat then (put_file p (take n t ++ drop n old) fs, false) else (put_file p (t ++ drop (length t) old) fs, true)
    | None => (put_file p (t ++ drop (length t) old) fs, true)
    end.

(** ** main *)
Record result : Type := mkResult {
  r_status : Z;
  r_out : list ascii;                                  (* standard output *)
  r_reported : list Z;                                 (* line numbers in messages *)
  r_counts : list (metric * string * string * nat);    (* what the metrics endpoint shows after the last line *)
  r_files : files
}.
Definition quit (status : Z) (fs : files) : result := mkResult status [] [] [] fs.
Section main.
Context (lo up : string → string) (unpack : string → ymap → bcfg + goerr).
Context (yaml_of : list ascii → yfile). (* the text of the definition: yaml.v3 *)
Context (fmt : Z → bool * Z * Z) (fuel : nat).
(** sawmill.go:39-44. *)
Definition imported : list string := ["append"; "community_id"; "lowercase"; "remove"; "set"; "uppercase"].
(** sawmill.go:103-107: os.Open and the decoder. *)
Definition definition_file (p : string) (fs : files) : yfile :=
  match read_file p fs with None => NoFile | Some t => yaml_of t end.
(** The counters on show: metrics.Register of the pipeline's own in the registry of
    metrics.go:28-37, each with the increments so far. *)
Definition on_show (c : config ymap) (pl : pipeline) (log : list (string * metric)) : list (metric * string * string * nat) :=
  map (λ k, (co_key k, count (co_id k) (co_metric k) log)) (metrics_register [] (collectors 0 pl (procs_types (cf_procs c)))).
(** sawmill.go:66-101, after the flags.  log.Fatal ends the program with status 1 and skips
    the deferred calls.  Simplifications: standard output takes everything (C45_write_error
    has the other case); a CPU profile is written when it is stopped (runtime/pprof
    profileWriter builds it then), and starting one succeeds; [h]: the heap with the
    options' values; [env]: as in Processors.v; metrics.Listen (metrics.go:51-64) has no effect on the rest, its
    errors are dropped. *)
Definition run_main (reg : registry bcfg proc) (h : heap) (env : list nat) (b : box) (o : opts) (stdin : list ascii) (readerr : bool) : Outcome result :=
  match create_profile b (o_cpu o) (b_files b) with
  | None => Ok (quit 1 (b_files b))
  | Some fs1 =>
      match create_profile b (o_mem o) fs1 with
      | None => Ok (quit 1 fs1)
      | Some fs =>
          match loadPipeline (definition_file (o_pipeline o) fs) with
          | None => Ok (quit 1 fs)
          | Some None => Panic
          | Some (Some c) =>
              match New [] unpack reg c with
              | Panic => Panic
              | Ok (Datatypes.inr _) => Ok (quit 1 fs)
              | Ok (inl pl) =>
                  match processInput fmt fuel pl (mkWorld h [] env []) None stdin readerr with
                  | Panic => Panic
                  | Ok (s, err) =>
                      let r := λ status fs, mkResult status (io_out s) (io_reported s) (on_show c pl (w_log (io_world s))) fs in
                      if err : bool then Ok (r 1 fs)
                      else
                        (* the deferred calls, last one first: sawmill.go:95, 75-81, 70, 69 *)
                        match write_profile b (o_mem o) (b_mem b) fs with
                        | (fs, false) => Ok (r 1 fs)
                        | (fs, true) =>
                            match write_profile b (o_cpu o) (b_cpu b) fs with
                            | (fs, false) => Ok (r 1 fs)
                            | (fs, true) => Ok (r 0 fs)
                            end
                        end
                  end
              end
          end
      end
  end.
(** The whole program; the packages' init functions come first. *)
Definition sawmill (h : heap) (env : list nat) (b : box) (args : list string) (stdin : list ascii) (readerr : bool) : Outcome result :=
  match init_all lo up imported NewRegistry with
  | Panic => Panic
  | Ok reg =>
      match parse_flags args defaults with
      | Bad => Ok (quit 2 (b_files b))
      | Help => Ok (quit 0 (b_files b))
      | Opts o => run_main reg h env b o stdin readerr
      end
  end.
End main.

(** ** Specification *)
Definition flag_names : list string := ["p"; "metrics-addr"; "cpuprofile"; "memprofile"].
(** The arguments begin with settings of flags, each one argument or two; then come
    the others. *)
Inductive settings : list string → list (string * string) → list string → Prop :=
| se_end args : settings args [] args
| se_equals d n v args l others : d ∈ ["-"; "--"] → n ∈ flag_names → settings args l others →
    settings ((d +:+ n +:+ "=" +:+ v) :: args) ((n, v) :: l) others
| se_next d n v args l others : d ∈ ["-"; "--"] → n ∈ flag_names → settings args l others →
    settings ((d +:+ n) :: v :: args) ((n, v) :: l) others.
(** The first of these ends the flags. *)
Definition flags_end (others : list string) : Prop :=
  match others with
  | [] => True
  | s :: _ => s = "" ∨ s = "-" ∨ s = "--" ∨ ∃ c t, s = String c t ∧ c ≠ "-"%char
  end.
(** The first of these asks for help. *)
Definition help_asked (others : list string) : Prop :=
  ∃ d n s r, others = s :: r ∧ d ∈ ["-"; "--"] ∧ n ∈ ["h"; "help"] ∧ (s = d +:+ n ∨ ∃ v, s = d +:+ n +:+ "=" +:+ v).
(** The value of the flag [n]: its last setting, or [d] without one. *)
Definition value_of (n d : string) (l : list (string * string)) (v : string) : Prop :=
  (∃ l1 l2, l = l1 ++ (n, v) :: l2 ∧ ∀ v', (n, v') ∉ l2) ∨ ((∀ v', (n, v') ∉ l) ∧ v = d).
Definition asks (args : list string) (o : opts) : Prop :=
  ∃ l others, settings args l others ∧ flags_end others ∧
    value_of "p" "" l (o_pipeline o) ∧ value_of "metrics-addr" "localhost:9003" l (o_metrics o) ∧
    value_of "cpuprofile" "" l (o_cpu o) ∧ value_of "memprofile" "" l (o_mem o).
Definition asks_help (args : list string) : Prop := ∃ l others, settings args l others ∧ help_asked others.

(** ** Proofs *)
(** *** Flags *)
Lemma str_app_nil (s : string) : s +:+ "" = s.
Proof. induction s as [|c s IH]; [done|]. cbn. by rewrite IH. Qed.
Inductive arg : Type := AStop | ASyntax | AFlag (n : string) (v : option string).
Definition classify (s : string) : arg :=
  match s with
  | String d (String c t) =>
      if negb (Ascii.eqb d "-"%char) then AStop
      else
        match (if Ascii.eqb c "-"%char then t else String c t) with
        | "" => AStop
        | String c1 name =>
            if Ascii.eqb c1 "-"%char || Ascii.eqb c1 "="%char then ASyntax
            else let '(n, v) := cut_rest name in AFlag (String c1 n) v
        end
  | _ => AStop
  end.
Lemma parse_cons s rest o : parse_flags (s :: rest) o =
  match classify s with
  | AStop => Opts o
  | ASyntax => Bad
  | AFlag n v =>
      if negb (defined_flag n) then if String.eqb n "help" || String.eqb n "h" then Help else Bad
      else match v with
           | Some v => parse_flags rest (set_flag n v o)
           | None => match rest with [] => Bad | v :: rest' => parse_flags rest' (set_flag n v o) end
           end
  end.
Proof.
  cbn [parse_flags]. unfold classify. destruct s as [|d [|c t]]; try done. destruct (negb (Ascii.eqb d "-")); [done|].
  destruct (if Ascii.eqb c "-" then t else String c t) as [|c1 name]; [done|]. destruct (_ || _); [done|]. by destruct (cut_rest name).
Qed.
Lemma defined_iff n : defined_flag n = true ↔ n ∈ flag_names.
Proof. unfold defined_flag, flag_names. rewrite !orb_true_iff, !String.eqb_eq, !elem_of_cons, elem_of_nil. tauto. Qed.
Lemma cut_rest_spec s : match cut_rest s with (n, Some v) => s = n +:+ "=" +:+ v | (n, None) => s = n end.
Proof.
  induction s as [|c s IH]; [done|]. cbn [cut_rest]. destruct (Ascii.eqb_spec c "=") as [->|_]; [done|]. destruct (cut_rest s) as [n [v|]]; cbn; by rewrite IH.
Qed.
Lemma classify_stop s rest : classify s = AStop ↔ flags_end (s :: rest).
Proof.
  cbn [flags_end]. destruct s as [|d [|c t]]; cbn [classify].
  - split; auto.
  - split; [|done]. intros _. destruct (ascii_dec d "-") as [->|Hd]; [by right; left|]. right. right. right. by exists d, "".
  - destruct (Ascii.eqb_spec d "-") as [->|Hd]; cbn [negb].
    + destruct (Ascii.eqb_spec c "-") as [->|Hc].
      * destruct t as [|c1 name]; [split; auto|]. split.
        -- destruct (_ || _); [done|]. by destruct (cut_rest name).
        -- intros [H|[H|[H|(c' & t' & H & H')]]]; try done. by injection H as <- _.
      * split.
        -- destruct (_ || _); [done|]. by destruct (cut_rest t).
        -- intros [H|[H|[H|(c' & t' & H & H')]]]; try done; [by injection H as ->|]. by injection H as <- _.
    + split; [|done]. intros _. right. right. right. by exists d, (String c t).
Qed.
Definition dashes (d : string) : Prop := d ∈ ["-"; "--"].
Lemma classify_flag s n v : classify s = AFlag n v → ∃ d, dashes d ∧ s = d +:+ n +:+ match v with Some v => "=" +:+ v | None => "" end.
Proof.
  destruct s as [|d [|c t]]; try done. cbn [classify]. destruct (Ascii.eqb_spec d "-") as [->|]; [|done]. cbn [negb].
  assert (∀ c1 name, (if Ascii.eqb c1 "-" || Ascii.eqb c1 "=" then ASyntax else let '(n, v) := cut_rest name in AFlag (String c1 n) v) = AFlag n v →
    String c1 name = n +:+ match v with Some v => "=" +:+ v | None => "" end) as Hn.
  { intros c1 name. destruct (_ || _); [done|]. pose proof (cut_rest_spec name) as Hc. destruct (cut_rest name) as [n' [v'|]]; intros [= <- <-]; rewrite Hc; [done|]. cbn. by rewrite str_app_nil. }
  destruct (Ascii.eqb_spec c "-") as [->|].
  - destruct t as [|c1 name]; [done|]. intros H. exists "--". split; [right; left|]. apply Hn in H. by rewrite H.
  - intros H. exists "-". split; [left|]. apply Hn in H. by rewrite H.
Qed.
Lemma classify_known d n : dashes d → n ∈ flag_names ∨ n ∈ ["h"; "help"] →
  classify (d +:+ n) = AFlag n None ∧ ∀ v, classify (d +:+ n +:+ "=" +:+ v) = AFlag n (Some v).
Proof.
  unfold dashes, flag_names. rewrite !elem_of_cons, !elem_of_nil. intros [->|[->|[]]] [[->|[->|[->|[->|[]]]]]|[->|[->|[]]]]; (split; [reflexivity|intros v; reflexivity]).
Qed.
Definition set_all (l : list (string * string)) (o : opts) : opts := fold_left (λ o nv, set_flag nv.1 nv.2 o) l o.
Lemma not_help n : n ∈ flag_names → String.eqb n "help" || String.eqb n "h" = false.
Proof. unfold flag_names. rewrite !elem_of_cons, elem_of_nil. by intros [->|[->|[->|[->|[]]]]]. Qed.
Lemma settings_parse args l others o : settings args l others → parse_flags args o = parse_flags others (set_all l o).
Proof.
  intros H. revert o. induction H as [args|d n v args l others Hd Hn _ IH|d n v args l others Hd Hn _ IH]; intros o; [done| |]; rewrite parse_cons;
    destruct (classify_known d n Hd (or_introl Hn)) as [H1 H2]; rewrite ?H1, ?H2, (proj2 (defined_iff n) Hn); cbn [negb]; apply IH.
Qed.
Lemma parse_ends args : ∀ o, ∃ l others, settings args l others ∧
  match parse_flags args o with
  | Opts o' => flags_end others ∧ o' = set_all l o
  | Help => help_asked others
  | Bad => ¬ flags_end others ∧ ¬ help_asked others
  end.
Proof.
  induction args as [args IH] using (induction_ltof1 _ (@length string)). intros o. destruct args as [|s rest].
  { exists [], []. split; [constructor|]. by split. }
  rewrite parse_cons. pose proof (classify_stop s rest) as Hs. destruct (classify s) as [| |n v] eqn:E.
  - exists [], (s :: rest). split; [constructor|]. split; [|done]. by apply Hs.
  - exists [], (s :: rest). split; [constructor|]. split; [by intros ?%Hs|]. intros (d & n & s' & r & [= <- <-] & Hd & Hn & H).
    destruct (classify_known d n Hd (or_intror Hn)) as [H1 H2]. destruct H as [->|[v ->]]; [by rewrite E in H1|]. by rewrite H2 in E.
  - destruct (classify_flag _ _ _ E) as (d & Hd & Hv). destruct (defined_flag n) eqn:Ed; cbn [negb].
    + apply defined_iff in Ed. assert (¬ help_asked (s :: rest)) as Hnh.
      { intros (d' & n' & s' & r & [= <- <-] & Hd' & Hn & H).
        destruct (classify_known d' n' Hd' (or_intror Hn)) as [H1 H2]. apply not_help in Ed. apply orb_false_iff in Ed as [Ha Hb]. apply String.eqb_neq in Ha, Hb.
        assert (n = n') as <- by (destruct H as [->|[v' ->]]; congruence).
        rewrite !elem_of_cons, elem_of_nil in Hn. naive_solver. }
      destruct v as [v|].
      * destruct (IH rest) with (o := set_flag n v o) as (l & others & Hl & Hp); [unfold ltof; cbn; lia|].
        exists ((n, v) :: l), others. split; [by subst s; constructor|]. by destruct (parse_flags _ _).
      * rewrite str_app_nil in Hv. destruct rest as [|v rest].
        -- exists [], [s]. split; [constructor|]. split; [by intros ?%Hs|done].
        -- destruct (IH rest) with (o := set_flag n v o) as (l & others & Hl & Hp); [unfold ltof; cbn; lia|].
           exists ((n, v) :: l), others. split; [by subst s; constructor|]. by destruct (parse_flags _ _).
    + assert (n ∉ flag_names) as Hn by (intros ?%defined_iff; congruence). exists [], (s :: rest).
      assert (help_asked (s :: rest) ↔ String.eqb n "help" || String.eqb n "h" = true) as Hh.
      { rewrite orb_true_iff, !String.eqb_eq. split.
        - intros (d' & n' & s' & r & [= <- <-] & Hd' & Hn' & H). destruct (classify_known d' n' Hd' (or_intror Hn')) as [H1 H2].
          assert (n = n') as <- by (destruct H as [->|[v' ->]]; congruence). rewrite !elem_of_cons, elem_of_nil in Hn'. naive_solver.
        - intros H. exists d, n, s, rest. split; [done|]. split; [done|]. split; [rewrite !elem_of_cons; naive_solver|].
          destruct v as [v|]; [right; by exists v|left; by rewrite str_app_nil in Hv]. }
      destruct (_ || _).
      * split; [constructor|]. by apply Hh.
      * split; [constructor|]. split; [by intros ?%Hs|]. intros ?%Hh. done.
Qed.
Lemma set_all_value (get : opts → string) n d l : ∀ o,
  (∀ v o, get (set_flag n v o) = v) → (∀ n' v o, n' ∈ flag_names → n' ≠ n → get (set_flag n' v o) = get o) →
  (∀ nv, nv ∈ l → nv.1 ∈ flag_names) → get o = d → ∀ v, value_of n d l v ↔ get (set_all l o) = v.
Proof.
  intros o H1 H2 Hl Hd v. revert Hl v. induction l as [|[n' v'] l IH] using rev_ind; intros Hl v.
  - split; [|intros <-; right; split; [by intros ? ?%elem_of_nil|done]]. intros [(l1 & l2 & H & _)|[_ ->]]; [by destruct l1|done].
  - unfold set_all. rewrite fold_left_app. cbn [fold_left fst snd]. fold (set_all l o).
    assert (n' ∈ flag_names) as Hn' by (apply (Hl (n', v')), elem_of_app; right; left).
    assert (∀ v, value_of n d l v ↔ get (set_all l o) = v) as IH' by (apply IH; intros nv Hin; apply Hl, elem_of_app; by left).
    destruct (decide (n' = n)) as [->|Hne].
    + rewrite H1. split.
      * intros [(l1 & l2 & H & Hno)|[Hno _]].
        -- destruct l2 as [|x l2 _] using rev_ind; [apply app_inj_tail in H as [_ H]; congruence|].
           rewrite app_comm_cons, app_assoc in H. apply app_inj_tail in H as [_ <-]. destruct (Hno v'). apply elem_of_app. right. left.
        -- destruct (Hno v'). apply elem_of_app. right. left.
      * intros <-. left. exists l, []. split; [done|]. by intros ? ?%elem_of_nil.
    + rewrite H2 by done. rewrite <- IH'. unfold value_of. split.
      * intros [(l1 & l2 & H & Hno)|[Hno ->]].
        -- destruct l2 as [|x l2 _] using rev_ind; [apply app_inj_tail in H as [_ H]; congruence|].
           rewrite app_comm_cons, app_assoc in H. apply app_inj_tail in H as [-> <-]. left. exists l1, l2. split; [done|]. intros v0 H0. apply (Hno v0), elem_of_app. by left.
        -- right. split; [|done]. intros v0 H0. apply (Hno v0), elem_of_app. by left.
      * intros [(l1 & l2 & -> & Hno)|[Hno ->]].
        -- left. exists l1, (l2 ++ [(n', v')]). split; [by rewrite <- app_assoc|]. intros v0 [H0|H0]%elem_of_app; [by apply (Hno v0)|].
           apply elem_of_list_singleton in H0. congruence.
        -- right. split; [|done]. intros v0 [H0|H0]%elem_of_app; [by apply (Hno v0)|]. apply elem_of_list_singleton in H0. congruence.
Qed.
Lemma settings_names args l others : settings args l others → ∀ nv, nv ∈ l → nv.1 ∈ flag_names.
Proof. induction 1; intros nv Hnv; [by apply elem_of_nil in Hnv|..]; apply elem_of_cons in Hnv as [->|?]; auto. Qed.
Lemma set_all_values args l others o : settings args l others →
  (value_of "p" "" l (o_pipeline o) ∧ value_of "metrics-addr" "localhost:9003" l (o_metrics o) ∧
   value_of "cpuprofile" "" l (o_cpu o) ∧ value_of "memprofile" "" l (o_mem o)) ↔ set_all l defaults = o.
Proof.
  intros Hl. pose proof (settings_names _ _ _ Hl) as Hn.
  rewrite (set_all_value o_pipeline "p" "" l defaults), (set_all_value o_metrics "metrics-addr" "localhost:9003" l defaults),
    (set_all_value o_cpu "cpuprofile" "" l defaults), (set_all_value o_mem "memprofile" "" l defaults); try done;
    try (intros n v o'; unfold flag_names; rewrite !elem_of_cons, elem_of_nil; intros [->|[->|[->|[->|[]]]]] ?; done).
  destruct o, (set_all l defaults); cbn. split; [intros (-> & -> & -> & ->); done|]. intros [= -> -> -> ->]. done.
Qed.
Lemma ends_not_help others : flags_end others → ¬ help_asked others.
Proof.
  intros He (d & n & s & r & -> & Hd & Hn & H). apply classify_stop in He. destruct (classify_known d n Hd (or_intror Hn)) as [H1 H2].
  destruct H as [->|[v ->]]; [congruence|by rewrite H2 in He].
Qed.
Lemma parse_end others o : flags_end others → parse_flags others o = Opts o.
Proof. destruct others as [|s r]; [done|]. intros He. apply classify_stop in He. by rewrite parse_cons, He. Qed.
Lemma parse_help others o : help_asked others → parse_flags others o = Help.
Proof.
  intros (d & n & s & r & -> & Hd & Hn & H). destruct (classify_known d n Hd (or_intror Hn)) as [H1 H2]. rewrite parse_cons.
  assert (defined_flag n = false ∧ String.eqb n "help" || String.eqb n "h" = true) as [Hf Hh].
  { rewrite !elem_of_cons, elem_of_nil in Hn. by destruct Hn as [->|[->|[]]]. }
  destruct H as [->|[v ->]]; rewrite ?H1, ?H2, Hf, Hh; done.
Qed.
