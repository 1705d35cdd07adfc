(** * The C shared library, examples/c/cshared/main.go, and the browser function,
    examples/wasm/wasm.go: texts in, texts out. *)
From Verif Require Export CmdSem Builtins ConfigJson.
From Verif Require Import JsonProps JsonGrammarProps.
From Coq Require Import Lia.
Local Open Scope Z_scope.

(** ** The model *)
(** What is behind a C string: the bytes before the first NUL.  C.GoString reads it so,
    and so does a caller read what C.CString made. *)
Fixpoint c_string (l : list ascii) : list ascii :=
  match l with
  | [] => []
  | c :: l' => if Ascii.eqb c (zb 0) then [] else c :: c_string l'
  end.
(** The package variable [pipe] (main.go:34) and everything else. *)
Record clib : Type := mkCLib { cl_world : world; cl_pipe : option pipeline }.
(** What Process returns.  Simplification: of an error, only that its message is
    returned. *)
Inductive creply : Type := CText (text : list ascii) | CMessage.

Section clib.
Context (unpack : string → cfgmap → bcfg + goerr) (reg : registry bcfg proc).
Context (fmt : Z → bool * Z * Z).
(** json.Unmarshal into a nil *pipeline.Config: null leaves it nil. *)
Definition decode_definition (text : list ascii) : option (option (config cfgmap)) :=
  match parse text with
  | Some JNull => Some None
  | _ => match UnmarshalConfig text with Some c => Some (Some c) | None => None end
  end.
(** pipeline.New of a *Config: config.ID of nil panics (pipeline.go:35). *)
Definition NewOf (c : option (config cfgmap)) : Outcome (pipeline + goerr) :=
  match c with None => Panic | Some c => New [] unpack reg c end.
(** main.go:36-52 Load; the number returned. *)
Definition c_load (s : clib) (input : list ascii) : Outcome (clib * Z) :=
  match decode_definition (c_string input) with
  | None => Ok (s, 1)
  | Some c =>
      match NewOf c with
      | Panic => Panic
      | Ok (Datatypes.inr _) => Ok (mkCLib (cl_world s) None, 1)  (* pipe, err = nil, err *)
      | Ok (inl pl) => Ok (mkCLib (cl_world s) (Some pl), 0)
      end
  end.
(** json.Unmarshal into a nil *event.Event: null leaves it nil.  The event, if any, is
    the last of the world's. *)
Definition decode_event (w : world) (text : list ascii) : option (world * option nat) :=
  match parse text with
  | Some JNull => Some (w, None)
  | _ =>
      match UnmarshalText (w_heap w) newEvent text with
      | (_, _, true) => None
      | (h, e, false) => Some (mkWorld h (w_events w ++ [e]) (w_env w) (w_log w), Some (length (w_events w)))
      end
  end.
(** json.Marshal of a *event.Event *)
Definition marshal_of (fuel : nat) (w : world) (r : option nat) : Outcome (option (list ascii)) :=
  match r with
  | None => Ok (Some (list_ascii_of_string "null"))
  | Some j => match w_events w !! j with None => Panic | Some e => MarshalText fmt fuel (w_heap w) e end
  end.
(** main.go:54-73 Process: a nil pipe panics. *)
Definition c_process (fuel : nat) (s : clib) (input : list ascii) : Outcome (clib * creply) :=
  match decode_event (cl_world s) (c_string input) with
  | None => Ok (s, CMessage)
  | Some (w, evt) =>
      match cl_pipe s with
      | None => Panic
      | Some pl =>
          match Process pl w evt with
          | Panic => Panic
          | Ok (w2, _, Some _) => Ok (mkCLib w2 (Some pl), CMessage)
          | Ok (w2, r, None) =>
              match marshal_of fuel w2 r with
              | Panic => Panic
              | Ok None => Ok (mkCLib w2 (Some pl), CMessage)
              | Ok (Some t) => Ok (mkCLib w2 (Some pl), CText t)
              end
          end
      end
  end.
(** A caller: calls of Process one after the other. *)
Fixpoint c_calls (fuel : nat) (s : clib) (inputs : list (list ascii)) : Outcome (clib * list creply) :=
  match inputs with
  | [] => Ok (s, [])
  | t :: l =>
      match c_process fuel s t with
      | Panic => Panic
      | Ok (s1, o) => match c_calls fuel s1 l with Panic => Panic | Ok (s2, os) => Ok (s2, o :: os) end
      end
  end.
(** wasm.go:31-61 process with two arguments, as text.  The result is a message saying
    which step failed, or the object toObject (wasm.go:65-77) returns, a nil map as
    [None]. *)
Inductive wreply : Type := WMessage (step : nat) | WObject (m : option (gomap tree)).
Definition to_object (fuel : nat) (w : world) (r : option nat) : Outcome (option (gomap tree)) :=
  match marshal_of fuel w r with
  | Panic | Ok None => Panic                            (* wasm.go:66-69 *)
  | Ok (Some t) =>
      match parse t with                                (* wasm.go:71-74 *)
      | Some JNull => Ok None
      | Some (JObj m) =>
          if jdepth (JObj m) <=? maxNestingDepth then
            match fields_of_json m with Some ts => Ok (Some (mof_list ts)) | None => Panic end
          else Panic
      | _ => Panic
      end
  end.
Definition wasm_process (fuel : nat) (w : world) (definition event : list ascii) : Outcome wreply :=
  match decode_definition definition with
  | None => Ok (WMessage 0)
  | Some c =>
      match NewOf c with
      | Panic => Panic
      | Ok (Datatypes.inr _) => Ok (WMessage 1)
      | Ok (inl pl) =>
          match decode_event w event with
          | None => Ok (WMessage 2)
          | Some (w1, evt) =>
              match Process pl w1 evt with
              | Panic => Panic
              | Ok (_, _, Some _) => Ok (WMessage 3)
              | Ok (w2, r, None) => match to_object fuel w2 r with Panic => Panic | Ok m => Ok (WObject m) end
              end
          end
      end
  end.
End clib.

(** ** JSON texts hold no NUL *)
Notation no_nul := (Forall (λ c : ascii, c ≠ zb 0)).
Lemma c_string_all l : no_nul l → c_string l = l.
Proof. induction 1 as [|c l Hc _ IH]; [done|]. simpl. destruct (Ascii.eqb_spec c (zb 0)); [done|]. by rewrite IH. Qed.
Lemma c_string_no_nul l : no_nul (c_string l).
Proof. induction l as [|c l IH]; simpl; [constructor|]. destruct (Ascii.eqb_spec c (zb 0)); by constructor. Qed.
Lemma nul_bz c : 0 < bz c → c ≠ zb 0.
Proof. intros H ->. vm_compute in H. done. Qed.
Lemma nul_zb z : 0 < z < 256 → zb z ≠ zb 0.
Proof. intros H. apply nul_bz. rewrite bz_zb; lia. Qed.
Lemma utf8_no_nul c : scalar c → 0 < c → no_nul (utf8_encode c).
Proof.
  intros Hs Hc. assert (c < 0x110000) as Hlt by (destruct Hs; lia). unfold utf8_encode.
  destruct (Z.ltb_spec c 0x80); [|destruct (Z.ltb_spec c 0x800); [|destruct (Z.ltb_spec c 0x10000)]];
    repeat apply List.Forall_cons; try apply List.Forall_nil; apply nul_zb;
    repeat match goal with |- context [?a / ?b] => pose proof (Z.div_mod a b ltac:(lia)); pose proof (Z.mod_pos_bound a b ltac:(lia)); generalize dependent (a / b); intros
           | |- context [?a mod ?b] => pose proof (Z.mod_pos_bound a b ltac:(lia)); generalize dependent (a mod b); intros end; lia.
Qed.
Lemma blanks_no_nul w : blanks w → no_nul w.
Proof.
  intros H. eapply Forall_impl; [exact H|]. intros c Hc. apply nul_bz. unfold blank in Hc.
  rewrite !elem_of_cons, elem_of_nil in Hc. lia.
Qed.
Lemma chars_no_nul l : forallb (λ c, negb (Ascii.eqb c (zb 0))) l = true → no_nul l.
Proof.
  induction l as [|c l IH]; [constructor|]. simpl. intros [H1 H2]%andb_true_iff. constructor; [|by apply IH].
  intros ->. by rewrite Ascii.eqb_refl in H1.
Qed.
Lemma hex_no_nul c n : hex c n → c ≠ zb 0.
Proof. intros H. apply nul_bz. inversion H; lia. Qed.
Lemma unit_no_nul u n : unit_escape u n → no_nul u.
Proof.
  intros (h1 & h2 & h3 & h4 & a & b & c & d & H1 & H2 & H3 & H4 & -> & _).
  apply Forall_app. split; [by apply chars_no_nul|]. repeat apply List.Forall_cons; try apply List.Forall_nil; by eapply hex_no_nul.
Qed.
Lemma content_no_nul raw s : content raw s → no_nul raw.
Proof.
  induction 1 as [|c raw s Hs H1 _ _ _ IH|c x raw s Hin _ IH|u n raw s Hu _ _ _ IH|u n u2 n2 raw s Hu _ Hu2 _ _ IH|u n raw s Hu _ _ _ IH|b raw s Hb _ IH].
  - constructor.
  - apply Forall_app. split; [apply utf8_no_nul; [done|lia]|done].
  - repeat apply List.Forall_cons; [done| |done]. unfold short_escapes in Hin. rewrite !elem_of_cons, elem_of_nil in Hin.
    destruct_or!; try done; by injection Hin as -> _.
  - apply Forall_app. split; [by eapply unit_no_nul|done].
  - rewrite !Forall_app. split_and!; [by eapply unit_no_nul|by eapply unit_no_nul|done].
  - apply Forall_app. split; [by eapply unit_no_nul|done].
  - constructor; [|done]. intros ->. apply (Hb 0 raw); [|done]. left. lia.
Qed.
Lemma quoted_no_nul raw s : quoted raw s → no_nul raw.
Proof.
  intros (inner & -> & H). rewrite !Forall_app. split_and!; [by apply chars_no_nul|by eapply content_no_nul|by apply chars_no_nul].
Qed.
Lemma decimals_no_nul l : decimals l → no_nul l.
Proof. intros H. eapply Forall_impl; [exact H|]. intros c Hc. apply nul_bz. simpl in Hc. lia. Qed.
Lemma numeral_no_nul raw neg m e : numeral raw neg m e → no_nul raw.
Proof.
  intros (int & frac & fds & exp & x & -> & Hi & Hf & He & _). rewrite !Forall_app. split_and!.
  - destruct neg; [by apply chars_no_nul|constructor].
  - destruct Hi as [->|(c & l & -> & Hc & Hl)]; [by apply chars_no_nul|]. constructor; [apply nul_bz; lia|by apply decimals_no_nul].
  - destruct Hf as [[-> _]|(-> & _ & Hd)]; [constructor|]. apply Forall_app. split; [by apply chars_no_nul|by apply decimals_no_nul].
  - destruct He as [[-> _]|(e' & sign & ds & -> & He & _ & Hd & Hs)]; [constructor|]. rewrite !Forall_app. split_and!; [| |by apply decimals_no_nul].
    + destruct He as [-> | ->]; by apply chars_no_nul.
    + destruct Hs as [[-> _]|[[-> | ->] _]]; [by apply chars_no_nul|by apply chars_no_nul|constructor].
Qed.
Lemma document_no_nul text j : document text j → no_nul text.
Proof.
  assert ((∀ raw j, text_of raw j → no_nul raw) ∧ (∀ raw l, items raw l → no_nul raw) ∧ (∀ raw m, members raw m → no_nul raw)) as (H & _ & _).
  { apply text_mutind; intros; rewrite ?Forall_app in *; split_and?;
      try (by apply chars_no_nul); try (by apply blanks_no_nul); try done;
      try (by eapply quoted_no_nul); try (by eapply numeral_no_nul). }
  intros (w1 & raw & w2 & -> & H1 & H2 & H3). rewrite !Forall_app. split_and!; [by apply blanks_no_nul|by eapply H|by apply blanks_no_nul].
Qed.

(** ** An event with fields keeps having them *)
Definition keeps_fields (w w' : world) : Prop := ∀ i e, w_events w !! i = Some e → fields e ≠ None →
  ∃ e', w_events w' !! i = Some e' ∧ fields e' ≠ None.
Lemma keeps_refl w : keeps_fields w w.
Proof. intros i e H1 H2. eauto. Qed.
Lemma keeps_trans w1 w2 w3 : keeps_fields w1 w2 → keeps_fields w2 w3 → keeps_fields w1 w3.
Proof. intros H1 H2 i e Hi He. destruct (H1 i e Hi He) as (e2 & Hi2 & He2). by apply (H2 i e2). Qed.
Lemma put_keeps h e path v ow r : put h e path v ow = Ok r → fields e ≠ None → fields (put_event r) ≠ None.
Proof.
  unfold put. intros H Hf. destruct path; [by injection H as <-|]. destruct v; [|by injection H as <-].
  destruct (fields e) eqn:E; [|done]. repeat (case_match; try done); simplify_eq; cbn [put_event]; by rewrite ?E.
Qed.
Lemma run_prog_keeps {A} (c : prog A) : ∀ w pe w' pe' a, run_prog c w pe = Ok (w', pe', a) → keeps_fields w w'.
Proof.
  assert (∀ w pe i e e' h, evt_of w pe = Some (i, e) → (fields e ≠ None → fields e' ≠ None) →
    keeps_fields w (mkWorld h (<[i:=e']> (w_events w)) (w_env w) (w_log w))) as Hput.
  { intros w pe i e e' h He Hf j x Hj Hx. cbn [w_events]. destruct (decide (i = j)) as [->|Hne].
    - exists e'. split; [by rewrite list_lookup_insert by (by eapply lookup_lt_Some)|]. apply Hf.
      unfold evt_of in He. destruct (pe_data pe) as [k|]; [|done]. destruct (w_events w !! k) eqn:Ek; [|done]. by simplify_eq.
    - exists x. by rewrite list_lookup_insert_ne. }
  induction c as [a|key v k IH|key v k IH|key k IH|key k IH|k IH|k IH|v k IH|k IH|p k IH|p v k IH|r k IH|r key v k IH|r key k IH|k IH|];
    intros w pe w' pe' a' H; cbn [run_prog] in H.
  - injection H as <- <- <-. apply keeps_refl.
  - destruct (evt_of w pe) as [[i e]|] eqn:E; [|done]. destruct (Put _ _ _ _) as [r|] eqn:Ep; [|done].
    eapply keeps_trans; [|by eapply IH]. eapply Hput; [exact E|]. by eapply put_keeps.
  - destruct (evt_of w pe) as [[i e]|] eqn:E; [|done]. destruct (TryPut _ _ _ _) as [r|] eqn:Ep; [|done].
    eapply keeps_trans; [|by eapply IH]. eapply Hput; [exact E|]. by eapply put_keeps.
  - destruct (evt_of w pe) as [[i e]|] eqn:E; [|done]. destruct (Get _ _ _) as [[h v]|]; [|done]. by apply (IH _ _ _ _ _ _ H).
  - destruct (evt_of w pe) as [[i e]|] eqn:E; [|done]. destruct (EvDelete _ _ _) as [[h v]|]; [|done]. by apply (IH _ _ _ _ _ _ H).
  - by eapply IH.
  - by eapply IH.
  - destruct (alloc_val _ _) as [h p]. by apply (IH _ _ _ _ _ _ H).
  - destruct (alloc_map _) as [h p]. by apply (IH _ _ _ _ _ _ H).
  - destruct (deref _ _); [|done]. by eapply IH.
  - destruct p; [|done]. destruct (decide _); [|done]. by apply (IH _ _ _ _ _ H).
  - by eapply IH.
  - destruct (map_write _ _ _ _); [|done]. by apply (IH _ _ _ _ _ H).
  - by apply (IH _ _ _ _ _ H).
  - destruct (w_env w); by apply (IH _ _ _ _ _ _ H).
  - done.
Qed.
Lemma run_list_keeps l :
  Forall (λ p, ∀ w pe w' pe' r, pp_process p w pe = Ok (w', pe', r) → keeps_fields w w') l →
  ∀ w pe err w' pe' r, run_list pp_process l w pe err = Ok (w', pe', r) → keeps_fields w w'.
Proof.
  induction 1 as [|p l Hp Hl IH]; intros w pe err w' pe' r H; simpl in H.
  - injection H as <- <- <-. apply keeps_refl.
  - destruct (pp_process p w pe) as [[[w1 pe1] [e|]]|] eqn:E; [| |done].
    + injection H as <- <- <-. by eapply Hp.
    + eapply keeps_trans; [by eapply Hp|by eapply IH].
Qed.
Lemma pp_process_keeps p : ∀ w pe w' pe' r, pp_process p w pe = Ok (w', pe', r) → keeps_fields w w'.
Proof.
  induction p as [id cond ignf ignm onf c IH] using pproc_ind'. intros w pe w' pe' r H. cbn [pp_process] in H.
  destruct (run_prog c (inc w id MIn) pe) as [[[w1 pe1] [err|]]|] eqn:E; [| |done]; apply run_prog_keeps in E.
  - destruct (pe_dropped pe1); [by injection H as <- <- <-|]. destruct (ignm && is_missing err); [by injection H as <- <- <-|].
    destruct (run_list pp_process onf w1 pe1 (Some err)) as [[[w2 pe2] err2]|] eqn:E2; [|done].
    assert (keeps_fields w w2) by (eapply keeps_trans; [exact E|by eapply run_list_keeps]).
    destruct (ignf && _); by injection H as <- <- <-.
  - by injection H as <- <- <-.
Qed.
Lemma Process_keeps pl w evt w' r err : Process pl w evt = Ok (w', r, err) → keeps_fields w w'.
Proof.
  assert (∀ l w pe err w' pe' r, run_list pp_process l w pe err = Ok (w', pe', r) → keeps_fields w w') as Hl.
  { intros l. apply run_list_keeps, Forall_forall. intros p _. apply pp_process_keeps. }
  unfold Process, pl_process. intros H.
  destruct (run_list pp_process (pl_processors pl) w _ None) as [[[w1 pe1] [e|]]|] eqn:E; [| |done].
  - destruct (run_list pp_process (pl_onf pl) w1 pe1 (Some e)) as [[[w2 pe2] [e2|]]|] eqn:E2; [| |done];
      (assert (keeps_fields w w2) by (eapply keeps_trans; by eapply Hl)).
    + by injection H as <- <- <-.
    + destruct (pe_dropped pe2); by injection H as <- <- <-.
  - assert (keeps_fields w w1) by (by eapply Hl). destruct (pe_dropped pe1); by injection H as <- <- <-.
Qed.

(** ** Decoded fields are in range, and stay so *)
Lemma means_range j t : means j t → in_range t.
Proof.
  revert j t. fix IH 3. intros j t H. destruct H as [|b|neg m e b Hd|s|l ts Hl|m ts fs Hm Hfs]; try done.
  - destruct Hd as (mag & [Hmag _] & _ & ->). unfold magnitude in Hmag. cbn [in_range]. destruct neg; lia.
  - apply in_range_arr. revert l ts Hl. fix IHl 3. intros l ts [|x y l' ts' Hx Hl']; constructor; [by eapply IH|by eapply IHl].
  - assert (Forall (λ kv, in_range kv.2) ts) as Hts.
    { clear Hfs. revert m ts Hm. fix IHl 3. intros m ts [|x y l' ts' Hx Hl']; constructor; [|by eapply IHl].
      destruct Hx as [_ Hx]. by eapply IH. }
    apply in_range_obj, Forall_forall. intros [k t] Hin. apply Hfs in Hin as (l1 & l2 & -> & _).
    rewrite Forall_forall in Hts. apply (Hts (k, t)). apply elem_of_app. right. left.
Qed.
Lemma tget_not_nil path m t : tget path m = Ok (Some t) → t ≠ TNil.
Proof.
  revert m. induction path as [|k path IH]; intros m H.
  - cbn [tget] in H. destruct m; simplify_eq; done.
  - cbn [tget] in H. destruct (mget k m) as [t0|]; [|done]. destruct path as [|k2 path]; [by destruct t0; simplify_eq|].
    destruct t0; try done. by apply (IH m0).
Qed.
Lemma range_keeps b : Forall (fine_conf (λ t, in_range t ∧ t ≠ TNil)) (pipe_confs b) →
  ∀ m, in_range (TObj m) → fineC True (sem_pipe b m) (λ '(m', _, _), in_range (TObj m')).
Proof.
  apply (sem_pipe_keeps True (λ m, in_range (TObj m))).
  - done.
  - intros m path Hm. destruct (tget path m) as [o|] eqn:E; [|done]. intros t ->. split; [by eapply range_tget|by eapply tget_not_nil].
  - intros l s [H _]. apply in_range_arr in H. split; [|done]. apply in_range_arr, Forall_app. split; [done|]. by repeat constructor.
  - intros m path t Hm [Ht _]. destruct (tput path t m) as [o|] eqn:E; [|done]. intros m' ->. by eapply range_tput.
  - done.
  - by intros t [_ H].
Qed.
Lemma event_text' fmt h e m fp : float_format fmt → ev_rep h e m fp → fields e ≠ None → in_range (TObj m) →
  ∃ N r, (∀ f, (N ≤ f)%nat → MarshalText fmt f h e = Ok r) ∧
    (writable m → ∃ text j, r = Some text ∧ document text j ∧ within 10000 j ∧ shown (TObj m) j) ∧ (¬ writable m → r = None).
Proof.
  intros Hf Hev Hfe Hr.
  destruct (C42_refused fmt h e m fp Hev Hfe) as (n1 & r & H1 & Hiff). apply in_range_obj in Hr.
  destruct (C53_writes fmt h e m fp Hf Hev Hr) as (n2 & H2). exists (n1 `max` n2)%nat, r.
  split; [intros f Hfu; apply H1; lia|]. split.
  - intros [W1 W2]. destruct r as [text|].
    2:{ exfalso. destruct (proj1 Hiff eq_refl); [done|lia]. }
    destruct (H2 (n1 `max` n2)%nat ltac:(lia) text) as (j & Hd & Hw & Hsh); [apply H1; lia|].
    destruct (fields e); [|done]. eauto 10.
  - intros Hw. destruct r as [text|]; [|done]. exfalso. apply Hw. split.
    + intros Hn. assert (Some text = None) by (apply Hiff; by left). done.
    + destruct (Z.le_gt_cases (tdepth (TObj m)) 10000); [done|]. assert (Some text = None) by (apply Hiff; right; lia). done.
Qed.

(** ** One call *)
(** What Process should reply for the fields [fs]. *)
Definition replies (b : bpipe) (fs : gomap tree) (o : creply) : Prop :=
  match sem_pipe b fs with
  | Gives (m', None, _) =>
      (writable m' → ∃ text j, o = CText text ∧ document text j ∧ shown (TObj m') j) ∧ (¬ writable m' → o = CMessage)
  | Gives (_, Some _, _) => o = CMessage
  | Crashes | Shares => False
  end.
(** The pipeline loaded does what [b] says. *)
Definition ready (b : bpipe) (s : clib) : Prop := ∃ pl, cl_pipe s = Some pl ∧ pipe_as (w_heap (cl_world s)) b pl.
Lemma fine_in_range h b pl : pipe_as h b pl → Forall (fine_conf in_range) (pipe_confs b) →
  Forall (fine_conf (λ t, in_range t ∧ t ≠ TNil)) (pipe_confs b).
Proof.
  intros Hp Hc. pose proof (pipe_as_clean _ _ _ Hp) as Hcl. rewrite Forall_forall in *. intros c Hin.
  specialize (Hcl c Hin). specialize (Hc c Hin). destruct c; try done. split; [done|]. by apply tclean_not_nil.
Qed.
Lemma decode_event_reads w text j fs : readable text j → means j (TObj fs) →
  ∃ h e fp, decode_event w text = Some (mkWorld h (w_events w ++ [e]) (w_env w) (w_log w), Some (length (w_events w))) ∧
    ev_rep h e fs fp ∧ fields e ≠ None ∧ stable (w_heap w) h noW.
Proof.
  intros Hr Hm. destruct (C53_reads (w_heap w) newEvent text j Hr) as (h & e & Hu & H).
  destruct H as [(-> & _)|(fs' & fp & Hm' & Hev & Hf & Hst & _)]; [inversion Hm|].
  pose proof Hr as (Hd & _ & _). assert (fs' = fs) as ->.
  { assert (TObj fs' = TObj fs) as E by (by eapply C53_meaning_unique). by injection E. }
  exists h, e, fp. split_and!; try done. apply parse_iff in Hd. unfold decode_event. rewrite Hd.
  destruct j; try (by inversion Hm). by rewrite Hu.
Qed.
Lemma decode_event_refuses w text : (∀ j, ¬ readable text j) → decode_event w text = None.
Proof.
  intros H. unfold decode_event. rewrite (C53_refuses (w_heap w) newEvent text H).
  destruct (parse text) as [[]|] eqn:E; try done. exfalso. apply (H JNull). apply parse_iff in E.
  split_and!; [done|by apply w_scalar|by left].
Qed.
Lemma processed_text fmt b pl w i m fp : float_format fmt → pipe_as (w_heap w) b pl → Forall (fine_conf in_range) (pipe_confs b) →
  showing w i m fp → in_range (TObj m) → (∀ e, w_events w !! i = Some e → fields e ≠ None) →
  match sem_pipe b m with
  | Gives (m', None, lg) => ∃ w2 N r, Process pl w (Some i) = Ok (w2, Some i, None) ∧ pipe_as (w_heap w2) b pl ∧ w_log w2 = w_log w ++ lg ∧
      (∀ f, (N ≤ f)%nat → marshal_of fmt f w2 (Some i) = Ok r) ∧
      (writable m' → ∃ text j, r = Some text ∧ document text j ∧ within 10000 j ∧ shown (TObj m') j) ∧ (¬ writable m' → r = None)
  | Gives (m', Some e, lg) => ∃ w2, Process pl w (Some i) = Ok (w2, None, Some e) ∧ pipe_as (w_heap w2) b pl ∧ w_log w2 = w_log w ++ lg
  | Crashes => Process pl w (Some i) = Panic
  | Shares => True
  end.
Proof.
  intros Hf Hp Hc Hs Hr Hfe. pose proof (range_keeps b (fine_in_range _ _ _ Hp Hc) m Hr) as Hk.
  pose proof (pipe_sem b pl w (mkPEvent (Some i) false false) i m fp Hp eq_refl eq_refl Hs) as H.
  destruct (sem_pipe b m) as [[[m' err] lg]| |]; [|unfold Process; cbn [grun_to] in H; by rewrite H|done]. cbn [run_to fineC] in H, Hk.
  destruct H as (w2 & Hpl & Hm & Hlg). pose proof Hm as ((fp' & (e' & Hi' & Hev') & _) & Hst & _).
  assert (pipe_as (w_heap w2) b pl) as Hp2.
  { eapply pipe_as_mono; [|exact Hp]. intros p t Hh. by eapply holds_stable. }
  destruct err as [err|].
  - exists w2. split_and!; try done. unfold Process. by rewrite Hpl.
  - assert (Process pl w (Some i) = Ok (w2, Some i, None)) as HP by (unfold Process; by rewrite Hpl).
    assert (fields e' ≠ None) as Hfe'.
    { destruct Hs as (e & He & _). destruct (Process_keeps _ _ _ _ _ _ HP i e He (Hfe e He)) as (e2 & Hi2 & He2). congruence. }
    destruct (event_text' fmt _ _ _ _ Hf Hev' Hfe' Hk) as (N & r & Hr1 & Hr2 & Hr3).
    exists w2, N, r. split_and!; try done. intros f Hfu. cbn [marshal_of]. rewrite Hi'. by apply Hr1.
Qed.
Lemma call_sem fmt b s input j fs : float_format fmt → ready b s → Forall (fine_conf in_range) (pipe_confs b) →
  readable (c_string input) j → means j (TObj fs) → sem_pipe b fs ≠ Shares →
  (sem_pipe b fs = Crashes → ∀ f, c_process fmt f s input = Panic) ∧
  (sem_pipe b fs ≠ Crashes → ∃ N s' o, (∀ f, (N ≤ f)%nat → c_process fmt f s input = Ok (s', o)) ∧ ready b s' ∧ replies b fs o).
Proof.
  intros Hf (pl & Hpl & Hp) Hc Hr Hm Hns.
  destruct (decode_event_reads (cl_world s) _ _ _ Hr Hm) as (h & e & fp & Hde & Hev & Hfe & Hst).
  set (w := mkWorld h (w_events (cl_world s) ++ [e]) (w_env (cl_world s)) (w_log (cl_world s))) in *. set (i := length (w_events (cl_world s))) in *.
  assert (pipe_as (w_heap w) b pl) as Hp1. { eapply pipe_as_mono; [|exact Hp]. intros p t Hh. by eapply holds_stable. }
  assert (w_events w !! i = Some e) as Hi. { cbn [w w_events]. rewrite lookup_app_r by (unfold i; lia). unfold i. by rewrite Nat.sub_diag. }
  pose proof (processed_text fmt b pl w i fs fp Hf Hp1 Hc) as H. unfold c_process, replies, ready. rewrite Hde, Hpl.
  destruct (sem_pipe b fs) as [[[m' err] lg]| |]; [|split; [|done]|done].
  - split; [done|]. intros _. destruct err as [err|].
    + destruct H as (w2 & HP & Hp2 & _); [by exists e|by eapply means_range|intros; congruence|].
      exists O, (mkCLib w2 (Some pl)), CMessage. split_and!; [|by exists pl|done]. intros f _. by rewrite HP.
    + destruct H as (w2 & N & r & HP & Hp2 & _ & Hr1 & Hr2 & Hr3); [by exists e|by eapply means_range|intros; congruence|].
      exists N, (mkCLib w2 (Some pl)), (match r with Some t => CText t | None => CMessage end). split_and!; [|by exists pl| |].
      * intros f Hfu. rewrite HP, (Hr1 f Hfu). by destruct r.
      * intros Hw. destruct (Hr2 Hw) as (t & j' & -> & ? & _ & ?). by exists t, j'.
      * intros Hw. by rewrite (Hr3 Hw).
  - intros _ f. rewrite H; [done|by exists e|by eapply means_range|intros; congruence].
Qed.
Lemma call_refused fmt f s input : (∀ j, ¬ readable (c_string input) j) → c_process fmt f s input = Ok (s, CMessage).
Proof. intros H. unfold c_process. by rewrite decode_event_refuses. Qed.

(** What is written can be read again. *)
Lemma shown_means t j : shown t j → in_range t → ∃ t', means j t'.
Proof.
  revert t j. fix IH 3. intros t j H. destruct H as [t Ht|b|z|z|b neg m e Hd|s s' Hs|z mo s|l js Hl|m js Hm]; intros Hr;
    try (by (eexists; constructor)); try (by (eexists; econstructor)).
  - cbn [in_range] in Hr. destruct (f64_of_Z_some z ltac:(lia)) as (b & Hb & _). exists (TFloat b). constructor.
    apply double_for_iff; [lia|exact Hb].
  - cbn [in_range] in Hr. destruct (f64_of_Z_some z ltac:(lia)) as (b & Hb & _). exists (TFloat b). constructor.
    apply double_for_iff; [lia|exact Hb].
  - apply in_range_arr in Hr. assert (∃ ts, Forall2 means js ts) as [ts Hts]; [|exists (TArr ts); by constructor].
    revert l js Hl Hr. fix IHl 3. intros l js [|x y l' js' Hx Hl'] Hr; [exists []; constructor|].
    destruct (IH x y Hx) as [t' Ht']; [by inversion Hr|]. destruct (IHl l' js' Hl') as [ts Hts]; [by inversion Hr|]. exists (t' :: ts). by constructor.
  - apply in_range_obj in Hr. assert (∃ ts, Forall2 (λ kj kt, kj.1 = kt.1 ∧ means kj.2 kt.2) js ts) as [ts Hts].
    2:{ exists (TObj (mof_list ts)). eapply mn_obj; [exact Hts|]. apply mof_list_later. }
    revert m js Hm Hr. fix IHl 3. intros m js [|x y l' js' Hx Hl'] Hr; [exists []; constructor|].
    destruct Hx as [_ Hx]. destruct (IH x.2 y.2 Hx) as [t' Ht']; [by inversion Hr|]. destruct (IHl l' js' Hl') as [ts Hts]; [by inversion Hr|].
    exists ((y.1, t') :: ts). by constructor.
Qed.
