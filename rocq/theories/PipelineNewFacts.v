(** * Specification of pipeline construction and lemmas. *)
From Verif Require Export PipelineNew PipelineFacts.

(** ** Strings *)
Lemma str_app_assoc (a b c : string) : (a +:+ b) +:+ c = a +:+ (b +:+ c).
Proof. induction a as [|x a IH]; simpl; [done|by rewrite IH]. Qed.
Lemma str_app_inj (a b c : string) : a +:+ b = a +:+ c → b = c.
Proof. induction a as [|x a IH]; simpl; [done|]. intros [= H]. by apply IH. Qed.
Lemma str_app_nil_r (a : string) : a +:+ "" = a.
Proof. induction a as [|x a IH]; simpl; [done|by rewrite IH]. Qed.
Lemma str_len_app (a b : string) : String.length (a +:+ b) = String.length a + String.length b.
Proof. induction a as [|x a IH]; simpl; [done|by rewrite IH]. Qed.
Lemma str_app_neq (a b : string) : b ≠ "" → a ≠ a +:+ b.
Proof.
  intros Hb H. apply (f_equal String.length) in H. rewrite str_len_app in H.
  destruct b; [done|]. simpl in H. lia.
Qed.

Lemma component_id_index base i j t1 t2 s1 s2 :
  component_id base i t1 +:+ s1 = component_id base j t2 +:+ s2 → i = j.
Proof.
  unfold component_id. rewrite !str_app_assoc. intros H. apply str_app_inj in H.
  apply str_app_inj in H.
  apply (digits_split _ _ "]" "]" ("." +:+ (t1 +:+ s1)) ("." +:+ (t2 +:+ s2))) in H as (H & _ & _);
    [|apply itoa_digits|apply itoa_digits|done|done].
  apply itoa_inj in H. lia.
Qed.

Section spec.
  Context {CfgMap CfgVal : Type}.
  Context (emptyCfg : CfgMap) (unpack : string → CfgMap → CfgVal + goerr) (reg : registry CfgVal proc).
  Notation optcfg := (optcfg CfgMap).
  Notation pcfg := (gomap (option optcfg)).
  Notation config := (config CfgMap).

  (** The options of an entry: a nil pointer stands for empty options. *)
  Definition opts (v : option optcfg) : optcfg := match v with Some o => o | None => zeroOpt emptyCfg end.

  (** [ty] is registered, its options unpack, its constructor accepts them. *)
  Definition accepted (ty : string) (cfg : CfgMap) (p : proc) : Prop :=
    ∃ c v, mget ty reg = Some c ∧ unpack (c_cfgtype c) cfg = inl v ∧ c_call c v = Ok (p, None) ∧
      c_err_nilable c = true.
  (** The processor has a method Config() returning one struct. *)
  Definition has_config (p : proc) (m : config_method) : Prop :=
    pr_config p = Some m ∧ cm_nin m = 0 ∧ cm_nout m = 1 ∧ cm_struct m = true.

  (** [built base i c p] (an ignore flag is set exactly when Config() reports a field
      of that name with value true): [p] is what the entry [c] at position [i] of the list
      [base] describes. *)
  Inductive built : string → nat → pcfg → pproc → Prop :=
  | built_intro base i ty v p m ps :
      accepted ty (o_cfg (opts v)) p → has_config p m →
      built_list (base +:+ "[" +:+ itoa (N.of_nat i) +:+ "]." +:+ ty +:+ ".on_failure") 0 (o_onf (opts v)) ps →
      built base i [(ty, v)]
        (PProc (base +:+ "[" +:+ itoa (N.of_nat i) +:+ "]." +:+ ty) (o_if (opts v))
           (bool_decide (cm_ignf m = Some true)) (bool_decide (cm_ignm m = Some true)) ps (pr_prog p))
  with built_list : string → nat → list pcfg → list pproc → Prop :=
  | built_nil base i : built_list base i [] []
  | built_cons base i c l p ps :
      built base i c p → built_list base (S i) l ps → built_list base i (c :: l) (p :: ps).

  (** Valid entries. *)
  Inductive valid_entry : pcfg → Prop :=
  | valid_intro ty v p m :
      accepted ty (o_cfg (opts v)) p → has_config p m → Forall valid_entry (o_onf (opts v)) →
      valid_entry [(ty, v)].

  Scheme built_mind := Induction for built Sort Prop
  with built_list_mind := Induction for built_list Sort Prop.
  Combined Scheme built_mutind from built_mind, built_list_mind.

  Lemma NewProcessor_ok ty cfg p : NewProcessor unpack reg ty cfg = Ok (inl p) ↔ accepted ty cfg p.
  Proof.
    unfold NewProcessor, accepted. split.
    - intros H. destruct (mget ty reg) as [c|]; [|done].
      destruct (unpack (c_cfgtype c) cfg) as [v|] eqn:Eu; [|done].
      destruct (c_call c v) as [[q [e|]]|] eqn:Ec; [| |done]; destruct (c_err_nilable c) eqn:En; try done.
      injection H as <-. by exists c, v.
    - intros (c & v & -> & -> & -> & ->). done.
  Qed.

  Lemma ignores_ok p im ifl :
    ignores p = Ok (inl (im, ifl)) ↔ ∃ m, has_config p m ∧ im = cm_ignm m ∧ ifl = cm_ignf m.
  Proof.
    unfold ignores, has_config. split.
    - destruct (pr_config p) as [m|]; [|done].
      destruct (Nat.eqb_spec (cm_nout m) 1); [|done]. destruct (Nat.eqb_spec (cm_nin m) 0); [|done]. simpl.
      destruct (cm_struct m) eqn:?; [|done]. intros [= <- <-]. by exists m.
    - intros (m & (-> & H1 & H2 & ->) & -> & ->). by rewrite H1, H2.
  Qed.

  Lemma default_false_spec o : default_false o = bool_decide (o = Some true).
  Proof. destruct o as [[]|]; done. Qed.

  Lemma new_proc_with_ok base i ty cond cfg onf q :
    new_proc_with unpack reg base i ty cond cfg onf = Ok (inl q) ↔
    ∃ p m ps, accepted ty cfg p ∧ has_config p m ∧
      onf (component_id base i ty +:+ ".on_failure") = Ok (inl ps) ∧
      q = PProc (component_id base i ty) cond (bool_decide (cm_ignf m = Some true)) (bool_decide (cm_ignm m = Some true)) ps (pr_prog p).
  Proof.
    unfold new_proc_with. rewrite <- ?default_false_spec. split.
    - intros H. destruct (NewProcessor unpack reg ty cfg) as [[p|]|] eqn:En; try done.
      destruct (ignores p) as [[[im ifl]|]|] eqn:Ei; try done.
      destruct (onf _) as [[ps|]|] eqn:Eo; try done. injection H as <-.
      apply NewProcessor_ok in En. apply ignores_ok in Ei as (m & Hm & -> & ->).
      exists p, m, ps. by rewrite <- !default_false_spec.
    - intros (p & m & ps & Ha & Hm & Ho & ->). rewrite <- !default_false_spec. apply NewProcessor_ok in Ha as ->.
      assert (ignores p = Ok (inl (cm_ignm m, cm_ignf m))) as -> by (apply ignores_ok; by exists m).
      by rewrite Ho.
  Qed.

  Lemma cid_onf base i ty :
    component_id base i ty +:+ ".on_failure" =
    base +:+ "[" +:+ itoa (N.of_nat i) +:+ "]." +:+ ty +:+ ".on_failure".
  Proof. unfold component_id. by rewrite !str_app_assoc. Qed.

  (** Induction over option trees. *)
  Definition optP (P : optcfg → Prop) (kv : string * option optcfg) : Prop :=
    match kv with (_, Some o) => P o | (_, None) => True end.
  Section optcfg_ind.
    Context (P : optcfg → Prop).
    Context (HP : ∀ id c onf cfg,
      Forall (Forall (optP P)) onf →
      P (OptCfg id c onf cfg)).
    Fixpoint optcfg_ind' (o : optcfg) : P o :=
      match o with
      | OptCfg id c onf cfg =>
          HP id c onf cfg
            ((fix go (l : list pcfg) : Forall (Forall (optP P)) l :=
                match l with
                | [] => List.Forall_nil _
                | e :: l' => @List.Forall_cons _ _ e l'
                    ((fix go2 (e : list (string * option optcfg)) : Forall (optP P) e :=
                        match e with
                        | [] => List.Forall_nil _
                        | kv :: e' => @List.Forall_cons _ _ kv e'
                            (match kv as kv return optP P kv with
                             | (k, Some o) => optcfg_ind' o
                             | (k, None) => I
                             end) (go2 e')
                        end) e) (go l')
                end) onf)
      end.
  End optcfg_ind.

  Definition new_ok (o : optcfg) : Prop := ∀ base i ty q,
    new_proc emptyCfg unpack reg base i ty o = Ok (inl q) ↔ built base i [(ty, Some o)] q.

  Lemma new_procs_ok l :
    Forall (Forall (optP new_ok)) l →
    ∀ base i ps, new_procs emptyCfg unpack reg (new_proc emptyCfg unpack reg) base i l = Ok (inl ps) ↔
                 built_list base i l ps.
  Proof.
    induction 1 as [|c l Hc _ IH]; intros base i ps; cbn [new_procs].
    - split; [intros [= <-]; constructor|]. by inversion 1.
    - destruct c as [|[k v] [|]].
      + split; [done|]. intros Hb. inversion Hb as [|? ? ? ? ? ? Hb1]; subst. inversion Hb1.
      + apply Forall_cons in Hc as [Hc _]. simpl in Hc.
        assert (∀ q, match v with
                     | Some o => new_proc emptyCfg unpack reg base i k o
                     | None => new_proc_with unpack reg base i k "" emptyCfg (λ _, Ok (inl []))
                     end = Ok (inl q) ↔ built base i [(k, v)] q) as Hv.
        { intros q. destruct v as [o|]; [by apply Hc|].
          rewrite new_proc_with_ok. split.
          - intros (p & m & ps' & Ha & Hm & [= <-] & ->).
            by apply (built_intro base i k None p m []); [| |constructor].
          - intros Hb. inversion Hb as [? ? ? ? p m ps' Ha Hm Hl]; subst.
            exists p, m, ps'. split_and!; try done. inversion Hl; subst. done. }
        split.
        * intros H. destruct (match v with Some _ => _ | None => _ end) as [[p|]|] eqn:E; try done.
          destruct (new_procs _ _ _ _ base (S i) l) as [[qs|]|] eqn:E2; try done.
          injection H as <-. constructor; [by apply Hv|by apply IH].
        * intros Hb. inversion Hb as [|? ? ? ? p qs Hb1 Hb2]; subst.
          apply Hv in Hb1. rewrite Hb1. apply IH in Hb2. by rewrite Hb2.
      + split; [done|]. intros Hb. inversion Hb as [|? ? ? ? ? ? Hb1]; subst. inversion Hb1.
  Qed.

  Lemma new_proc_ok o : new_ok o.
  Proof.
    induction o as [id c onf cfg IH] using optcfg_ind'. intros base i ty q.
    cbn [new_proc]. rewrite new_proc_with_ok. split.
    - intros (p & m & ps & Ha & Hm & Ho & ->). apply (new_procs_ok _ IH) in Ho. rewrite cid_onf in Ho.
      by apply (built_intro base i ty (Some (OptCfg id c onf cfg)) p m ps).
    - intros Hb. inversion Hb as [? ? ? ? p m ps Ha Hm Hl]; subst. exists p, m, ps.
      split_and!; try done. rewrite cid_onf. by apply (new_procs_ok _ IH).
  Qed.

  Lemma new_procs_built l base i ps :
    new_procs emptyCfg unpack reg (new_proc emptyCfg unpack reg) base i l = Ok (inl ps) ↔ built_list base i l ps.
  Proof.
    apply new_procs_ok, Forall_forall. intros c _. apply Forall_forall. intros [k [o|]] _; [|done].
    apply new_proc_ok.
  Qed.

  Lemma New_ok c pl :
    New emptyCfg unpack reg c = Ok (inl pl) ↔
    cf_id c ≠ "" ∧ pl_id pl = cf_id c ∧
    built_list (cf_id c +:+ ".processors") 0 (cf_procs c) (pl_processors pl) ∧
    built_list (cf_id c +:+ ".on_failure") 0 (cf_onf c) (pl_onf pl).
  Proof.
    unfold New. destruct (String.eqb_spec (cf_id c) "") as [Heq|Hne]; [naive_solver|]. split.
    - intros H. destruct (new_procs _ _ _ _ _ 0 (cf_procs c)) as [[ps|]|] eqn:E1; try done.
      destruct (new_procs _ _ _ _ _ 0 (cf_onf c)) as [[qs|]|] eqn:E2; try done.
      injection H as <-. simpl. split_and!; try done; by apply new_procs_built.
    - intros (_ & Hid & H1 & H2). apply new_procs_built in H1 as ->. apply new_procs_built in H2 as ->.
      destruct pl; simpl in *. by subst.
  Qed.

  (** Constructors that return, of processors whose Config method, if it returns one
      value, takes no arguments and returns a struct. *)
  Definition sound_constructors : Prop := ∀ ty c v, mget ty reg = Some c → (∃ m, unpack (c_cfgtype c) m = inl v) →
    c_err_nilable c = true ∧ ∃ p err, c_call c v = Ok (p, err) ∧
    ∀ m, pr_config p = Some m → cm_nout m = 1 → cm_nin m = 0 ∧ cm_struct m = true.
  Lemma new_proc_with_returns base i ty cond cfg onf : sound_constructors → (∀ b, onf b ≠ Panic) →
    new_proc_with unpack reg base i ty cond cfg onf ≠ Panic.
  Proof.
    intros Hs Ho. unfold new_proc_with, NewProcessor. destruct (mget ty reg) as [c|] eqn:Ec; [|done].
    destruct (unpack (c_cfgtype c) cfg) as [v|] eqn:Ev; [|done].
    destruct (Hs ty c v Ec) as (Hn & p & err & Hc & Hm); [by exists cfg|]. rewrite Hc, Hn. cbn [negb].
    destruct err; [done|]. unfold ignores. destruct (pr_config p) as [m|] eqn:Em; [|done].
    destruct (Nat.eqb_spec (cm_nout m) 1) as [E|]; [|done]. destruct (Hm m eq_refl E) as [-> ->]. cbn.
    specialize (Ho (component_id base i ty +:+ ".on_failure")). by destruct (onf _) as [[]|].
  Qed.
  Lemma new_procs_returns new1 l : sound_constructors →
    Forall (Forall (optP (λ o, ∀ base i ty, new1 base i ty o ≠ Panic))) l →
    ∀ base i, new_procs emptyCfg unpack reg new1 base i l ≠ Panic.
  Proof.
    intros Hs. induction 1 as [|c l Hc _ IH]; intros base i; cbn [new_procs]; [done|].
    destruct c as [|[k v] [|]]; try done. apply Forall_cons in Hc as [Hc _]. simpl in Hc. specialize (IH base (S i)).
    assert (match v with
            | Some o => new1 base i k o
            | None => new_proc_with unpack reg base i k "" emptyCfg (λ _, Ok (inl []))
            end ≠ Panic) as Hv by (destruct v; [apply Hc|by apply new_proc_with_returns]).
    destruct (match v with Some _ => _ | None => _ end) as [[p|]|]; try done.
    by destruct (new_procs emptyCfg unpack reg new1 base (S i) l) as [[]|].
  Qed.
  Lemma new_proc_returns o : sound_constructors → ∀ base i ty, new_proc emptyCfg unpack reg base i ty o ≠ Panic.
  Proof.
    intros Hs. induction o as [id c onf cfg IH] using optcfg_ind'. intros base i ty. cbn [new_proc].
    apply new_proc_with_returns; [done|]. intros b. by apply new_procs_returns.
  Qed.
  Lemma New_returns c : sound_constructors → New emptyCfg unpack reg c ≠ Panic.
  Proof.
    intros Hs. unfold New. destruct (String.eqb _ _); [done|].
    assert (∀ base l, new_procs emptyCfg unpack reg (new_proc emptyCfg unpack reg) base 0 l ≠ Panic) as Hl.
    { intros base l. apply new_procs_returns; [done|]. apply Forall_forall. intros e _. apply Forall_forall.
      intros [k [o|]] _; [|done]. simpl. intros base' i ty. by apply new_proc_returns. }
    pose proof (Hl (cf_id c +:+ ".processors") (cf_procs c)) as H1. pose proof (Hl (cf_id c +:+ ".on_failure") (cf_onf c)) as H2.
    destruct (new_procs _ _ _ _ _ 0 (cf_procs c)) as [[]|]; try done. by destruct (new_procs _ _ _ _ _ 0 (cf_onf c)) as [[]|].
  Qed.

  (** Validity is exactly buildability. *)
  Lemma built_valid :
    (∀ base i c p, built base i c p → valid_entry c) ∧
    (∀ base i l ps, built_list base i l ps → Forall valid_entry l).
  Proof.
    apply (built_mutind (λ base i c p _, valid_entry c) (λ base i l ps _, Forall valid_entry l)).
    - intros base i ty v p m ps Ha Hm _ IH. by econstructor.
    - constructor.
    - intros. by constructor.
  Qed.

  Lemma valid_built : ∀ c, valid_entry c → ∀ base i, ∃ p, built base i c p.
  Proof.
    fix IH 2. intros c [ty v p m Ha Hm Hl] base i.
    assert (∀ l, Forall valid_entry l → ∀ base i, ∃ ps, built_list base i l ps) as Hll.
    { fix IHl 2. intros l [|c' l' Hc Hl'] b j.
      - exists []. constructor.
      - destruct (IH c' Hc b j) as [q Hq]. destruct (IHl l' Hl' b (S j)) as [qs Hqs].
        exists (q :: qs). by constructor. }
    destruct (Hll _ Hl (base +:+ "[" +:+ itoa (N.of_nat i) +:+ "]." +:+ ty +:+ ".on_failure") 0) as [ps Hps].
    eexists. by apply (built_intro base i ty v p m ps).
  Qed.

  Lemma valid_built_list l : Forall valid_entry l → ∀ base i, ∃ ps, built_list base i l ps.
  Proof.
    induction 1 as [|c l Hc _ IH]; intros base i; [exists []; constructor|].
    destruct (valid_built c Hc base i) as [p Hp]. destruct (IH base (S i)) as [ps Hps].
    exists (p :: ps). by constructor.
  Qed.

  (** ** Ids *)
  Lemma built_ids :
    (∀ base i c p, built base i c p →
       ∃ ty, NoDup (map p_id (pp_all p)) ∧
       ∀ id, id ∈ map p_id (pp_all p) → ∃ s, id = component_id base i ty +:+ s) ∧
    (∀ base i l ps, built_list base i l ps →
       NoDup (map p_id (pps_all ps)) ∧
       ∀ id, id ∈ map p_id (pps_all ps) → ∃ j ty s, i ≤ j ∧ id = component_id base j ty +:+ s).
  Proof.
    apply (built_mutind
      (λ base i c p _, ∃ ty, NoDup (map p_id (pp_all p)) ∧
         ∀ id, id ∈ map p_id (pp_all p) → ∃ s, id = component_id base i ty +:+ s)
      (λ base i l ps _, NoDup (map p_id (pps_all ps)) ∧
         ∀ id, id ∈ map p_id (pps_all ps) → ∃ j ty s, i ≤ j ∧ id = component_id base j ty +:+ s)).
    - intros base i ty v p m ps Ha Hm _ [Hnd Hids]. exists ty. rewrite pp_all_eq. cbn [map Pipeline.p_id].
      set (cid := base +:+ "[" +:+ itoa (N.of_nat i) +:+ "]." +:+ ty).
      assert (cid = component_id base i ty) as Hcid by done.
      assert (∀ id, id ∈ map p_id (pps_all ps) → ∃ s, s ≠ "" ∧ id = component_id base i ty +:+ s) as Hsub.
      { intros id Hin. apply Hids in Hin as (j & t & s & _ & ->).
        rewrite <-cid_onf. unfold component_id at 1. rewrite !str_app_assoc.
        eexists. split; [|reflexivity]. done. }
      split.
      + apply NoDup_cons. split; [|done]. intros Hin. apply Hsub in Hin as (s & Hs & Heq).
        rewrite <-Hcid in Heq. by apply str_app_neq in Heq.
      + intros id Hin. apply elem_of_cons in Hin as [->|Hin].
        * exists "". by rewrite str_app_nil_r.
        * apply Hsub in Hin as (s & _ & ->). by exists s.
    - intros base i. split; [constructor|]. intros id Hin. by apply elem_of_nil in Hin.
    - intros base i c l p ps _ [ty [Hnd1 Hid1]] _ [Hnd2 Hid2].
      rewrite pps_all_cons, map_app. split.
      + apply NoDup_app. split_and!; try done. intros id H1 H2.
        apply Hid1 in H1 as (s & ->). apply Hid2 in H2 as (j & t & s' & Hj & Heq).
        apply component_id_index in Heq. lia.
      + intros id Hin. apply elem_of_app in Hin as [Hin|Hin].
        * apply Hid1 in Hin as (s & ->). by exists i, ty, s.
        * apply Hid2 in Hin as (j & t & s & Hj & ->). exists j, t, s. split; [lia|done].
  Qed.

  Lemma New_ids c pl :
    New emptyCfg unpack reg c = Ok (inl pl) → NoDup (map p_id (pl_all pl)).
  Proof.
    intros H. apply New_ok in H as (_ & _ & H1 & H2).
    apply built_ids in H1 as [Hn1 Hi1]. apply built_ids in H2 as [Hn2 Hi2].
    unfold pl_all. rewrite map_app. apply NoDup_app. split_and!; try done.
    intros id Ha Hb. apply Hi1 in Ha as (j & t & s & _ & ->). apply Hi2 in Hb as (j' & t' & s' & _ & Heq).
    unfold component_id in Heq. rewrite !str_app_assoc in Heq. by apply str_app_inj in Heq.
  Qed.

  Lemma New_ids_prefix c pl p :
    New emptyCfg unpack reg c = Ok (inl pl) → p ∈ pl_all pl → ∃ s, p_id p = cf_id c +:+ String "." s.
  Proof.
    intros H Hp. apply New_ok in H as (_ & _ & H1 & H2).
    apply built_ids in H1 as [_ Hi1]. apply built_ids in H2 as [_ Hi2].
    unfold pl_all in Hp. apply elem_of_app in Hp as [Hp|Hp]; apply (elem_of_list_fmap_1 p_id) in Hp.
    - apply Hi1 in Hp as (j & t & s & _ & ->). unfold component_id. rewrite !str_app_assoc.
      eexists. reflexivity.
    - apply Hi2 in Hp as (j & t & s & _ & ->). unfold component_id. rewrite !str_app_assoc.
      eexists. reflexivity.
  Qed.
End spec.

(** Strings without dots before a dot. *)
Fixpoint has_dot (s : string) : bool :=
  match s with "" => false | String c s' => Ascii.eqb c "."%char || has_dot s' end.

Lemma dotless_split a b s t :
  has_dot a = false → has_dot b = false → a +:+ String "." s = b +:+ String "." t → a = b.
Proof.
  revert b. induction a as [|x a IH]; intros [|y b] Ha Hb H; simpl in *.
  - done.
  - injection H as <- _. done.
  - injection H as -> _. done.
  - injection H as -> H. apply orb_false_elim in Ha as [_ Ha], Hb as [_ Hb].
    f_equal. by apply IH.
Qed.
