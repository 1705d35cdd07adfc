(** * Pipeline definitions as YAML: cmd/sawmill/sawmill.go loadPipeline, with yaml.v3.

    gopkg.in/yaml.v3 v3.0.1 (go.mod) reads the text of a document into a tree of nodes and
    decodes the tree into the Go value.  The first step, with the resolution of plain
    scalars (yaml.v3 resolve.go), is not modelled: a document is the tree it gives.  The
    second (yaml.v3 decode.go, whose rules are taken from the library's published source,
    not in /repo) is.  Not covered: aliases, merge keys (<<), binary scalars and explicit
    tags. *)
From Verif Require Export JsonMeaning PipelineNew PipelineNewFacts.
From Coq Require Import Lia.
Local Open Scope Z_scope.

(** A scalar's value; a string's is its text. *)
Inductive yleaf : Type := LNull | LBool (b : bool) | LInt (z : Z) | LUint (z : Z) | LFloat (bits : Z) | LStr | LTime (z : Z).
Inductive ynode : Type :=
| YLeaf (text : string) (v : yleaf)
| YSeq (l : list ynode)
| YMap (m : list (ynode * ynode)).
(** Values of type interface{}: nil, bool, int, uint64, float64, string, time.Time,
    []interface{}, map[string]interface{} and map[interface{}]interface{}.  The last is
    represented by the assignments made to it, in order. *)
Inductive yval : Type :=
| VNil | VBool (b : bool) | VInt (z : Z) | VUint (z : Z) | VFloat (bits : Z) | VStr (s : string) | VTime (z : Z)
| VList (l : list yval)
| VMap (m : list (string * yval))
| VGeneral (m : list (yval * yval)).

(** config.go:34-39: the inline options, a map[string]interface{}. *)
Notation ymap := (list (string * yval)).
Notation yocfg := (optcfg ymap).
Notation ypcfg := (list (string * option yocfg)).

(** ** The model *)
(** yaml.v3's decoder collects errors and goes on; any error makes Decode return one.
    [None]: an error.  As in ConfigJson.v, nil and empty slices and maps of the
    configuration types are identified. *)
Definition kind_of (n : ynode) : nat := match n with YLeaf _ _ => 0 | YSeq _ => 1 | YMap _ => 2 end.
Definition text_of (n : ynode) : string := match n with YLeaf t _ => t | _ => "" end.
(** A mapping with two keys of the same kind and text is an error, whatever it is decoded
    into. *)
Fixpoint repeated (m : list (ynode * ynode)) : bool :=
  match m with
  | [] => false
  | (k, _) :: m' =>
      existsb (λ kv, Nat.eqb (kind_of k) (kind_of kv.1) && String.eqb (text_of k) (text_of kv.1)) m' || repeated m'
  end.
(** A scalar into an interface{}. *)
Definition leaf_val (t : string) (v : yleaf) : yval :=
  match v with
  | LNull => VNil | LBool b => VBool b | LInt z => VInt z | LUint z => VUint z | LFloat b => VFloat b
  | LStr => VStr t | LTime z => VTime z
  end.
Definition string_key (kv : ynode * ynode) : bool := match kv.1 with YLeaf _ LStr => true | _ => false end.
(** Into an interface{}: the values of [Config map[string]interface{}] (config.go:38). *)
Fixpoint decode_any (n : ynode) : option yval :=
  match n with
  | YLeaf t v => Some (leaf_val t v)
  | YSeq l => match osequence (map decode_any l) with Some vs => Some (VList vs) | None => None end
  | YMap m =>
      if repeated m then None
      else if forallb string_key m then
        match osequence (map (λ kv : ynode * ynode, let '(k, n) := kv in
                                match decode_any n with Some v => Some (text_of k, v) | None => None end) m) with
        | Some es => Some (VMap (mof_list es))
        | None => None
        end
      else
        match osequence (map (λ kv : ynode * ynode, let '(k, n) := kv in
                                match k with
                                | YLeaf t kv => match decode_any n with Some v => Some (leaf_val t kv, v) | None => None end
                                | _ => None (* a slice or map as a key *)
                                end) m) with
        | Some es => Some (VGeneral es)
        | None => None
        end
  end.
(** Into a string, which holds [old]: null changes nothing, any other scalar gives its text. *)
Definition decode_text (n : ynode) (old : string) : option string :=
  match n with
  | YLeaf _ LNull => Some old
  | YLeaf t _ => Some t
  | _ => None
  end.
(** Into a struct, member after member: members with a null key are passed over; [set]
    decodes the value into the field of that name. *)
Definition decode_struct {S : Type} (set : string → ynode → S → option S) : list (ynode * ynode) → S → option S :=
  fix go m st :=
    match m with
    | [] => Some st
    | (k, n) :: m' =>
        match k with
        | YLeaf _ LNull => go m' st
        | YLeaf t _ => match set t n st with Some st' => go m' st' | None => None end
        | _ => None
        end
    end.
(** The members of a ProcessorConfig (config.go:32), a map[string]*ProcessorOptionConfig:
    members with a null key are passed over, a null value is a nil pointer. *)
Definition decode_members (block : ynode → option yocfg) : list (ynode * ynode) → option (list (string * option yocfg)) :=
  fix go m :=
    match m with
    | [] => Some []
    | (k, n) :: m' =>
        match k with
        | YLeaf _ LNull => go m'
        | YLeaf t _ =>
            match n with
            | YLeaf _ LNull => match go m' with Some es => Some ((t, None) :: es) | None => None end
            | _ => match block n, go m' with Some c, Some es => Some ((t, Some c) :: es) | _, _ => None end
            end
        | _ => None
        end
    end.
Definition decode_proc (block : ynode → option yocfg) (n : ynode) : option ypcfg :=
  match n with
  | YLeaf _ LNull => Some []
  | YMap m => if repeated m then None else match decode_members block m with Some es => Some (mof_list es) | None => None end
  | _ => None
  end.
(** Into a []ProcessorConfig. *)
Definition decode_procs (block : ynode → option yocfg) (n : ynode) : option (list ypcfg) :=
  match n with
  | YLeaf _ LNull => Some []
  | YSeq l => osequence (map (decode_proc block) l)
  | _ => None
  end.
(** Into a ProcessorOptionConfig (config.go:34-39): members that name no field go into the
    inline map. *)
Fixpoint decode_block (n : ynode) : option yocfg :=
  match n with
  | YMap m =>
      if repeated m then None
      else decode_struct (λ f n st,
        let '(OptCfg id cond onf cfg) := st in
        if String.eqb f "id" then match decode_text n id with Some s => Some (OptCfg s cond onf cfg) | None => None end
        else if String.eqb f "if" then match decode_text n cond with Some s => Some (OptCfg id s onf cfg) | None => None end
        else if String.eqb f "on_failure" then match decode_procs decode_block n with Some l => Some (OptCfg id cond l cfg) | None => None end
        else match decode_any n with Some v => Some (OptCfg id cond onf (mset f v cfg)) | None => None end)
        m (OptCfg "" "" [] [])
  | _ => None
  end.
(** Into a *Config that is nil (config.go:25-30): members that name no field are ignored.
    [Some None]: the pointer is still nil. *)
Definition decode_config (n : ynode) : option (option (config ymap)) :=
  match n with
  | YLeaf _ LNull => Some None
  | YMap m =>
      if repeated m then None
      else
        match decode_struct (λ f n (c : config ymap),
          if String.eqb f "id" then match decode_text n (cf_id c) with Some s => Some (mkConfig s (cf_desc c) (cf_procs c) (cf_onf c)) | None => None end
          else if String.eqb f "description" then match decode_text n (cf_desc c) with Some s => Some (mkConfig (cf_id c) s (cf_procs c) (cf_onf c)) | None => None end
          else if String.eqb f "processors" then match decode_procs decode_block n with Some l => Some (mkConfig (cf_id c) (cf_desc c) l (cf_onf c)) | None => None end
          else if String.eqb f "on_failure" then match decode_procs decode_block n with Some l => Some (mkConfig (cf_id c) (cf_desc c) (cf_procs c) l) | None => None end
          else Some c) m (mkConfig "" "" [] []) with
        | Some c => Some (Some c)
        | None => None
        end
  | _ => None
  end.
(** What the file holds: it cannot be opened, its text is no YAML, it has no document, or
    its first document is a tree of nodes.  Later documents are not read. *)
Inductive yfile : Type := NoFile | BadText | NoDocument | FirstDocument (n : ynode).
(** cmd/sawmill/sawmill.go:103-116 loadPipeline *)
Definition loadPipeline (f : yfile) : option (option (config ymap)) :=
  match f with
  | FirstDocument n => decode_config n
  | _ => None
  end.
(** sawmill.go:85-93, the part of main that makes the pipeline; [Ok None]: log.Fatal.
    pipeline.New (pipeline.go:34-35) reads the ID of the configuration and panics when the
    pointer is nil. *)
Definition start {CfgVal} (unpack : string → ymap → CfgVal + goerr) (reg : registry CfgVal proc) (f : yfile) : Outcome (option pipeline) :=
  match loadPipeline f with
  | None => Ok None
  | Some None => Panic
  | Some (Some c) =>
      match New [] unpack reg c with
      | Ok (inl p) => Ok (Some p)
      | Ok (Datatypes.inr _) => Ok None
      | Panic => Panic
      end
  end.

(** ** Specification *)
(** Keys written alike: scalars of the same text, any two sequences, any two mappings. *)
Inductive alike : ynode → ynode → Prop :=
| al_leaf t v v' : alike (YLeaf t v) (YLeaf t v')
| al_seq l l' : alike (YSeq l) (YSeq l')
| al_map m m' : alike (YMap m) (YMap m').
Definition distinct_keys (m : list (ynode * ynode)) : Prop :=
  ∀ i j kn kn', m !! i = Some kn → m !! j = Some kn' → alike kn.1 kn'.1 → i = j.
(** A Go map with the entries [es]. *)
Definition as_map {A} (es fs : list (string * A)) : Prop := Permutation es fs ∧ msorted fs.
(** The plain data a node stands for. *)
Inductive shows : ynode → yval → Prop :=
| sh_null t : shows (YLeaf t LNull) VNil
| sh_bool t b : shows (YLeaf t (LBool b)) (VBool b)
| sh_int t z : shows (YLeaf t (LInt z)) (VInt z)
| sh_uint t z : shows (YLeaf t (LUint z)) (VUint z)
| sh_float t b : shows (YLeaf t (LFloat b)) (VFloat b)
| sh_str t : shows (YLeaf t LStr) (VStr t)
| sh_time t z : shows (YLeaf t (LTime z)) (VTime z)
| sh_list l vs : Forall2 shows l vs → shows (YSeq l) (VList vs)
| sh_map m es fs : distinct_keys m →
    Forall2 (λ kn fv, kn.1 = YLeaf fv.1 LStr ∧ shows kn.2 fv.2) m es → as_map es fs → shows (YMap m) (VMap fs)
| sh_general m es : distinct_keys m → (∃ kn, kn ∈ m ∧ ∀ t, kn.1 ≠ YLeaf t LStr) →
    Forall2 (λ kn uv, (∃ t v, kn.1 = YLeaf t v) ∧ shows kn.1 uv.1 ∧ shows kn.2 uv.2) m es → shows (YMap m) (VGeneral es).

(** A key that names the field [f]: a scalar other than null, with that text. *)
Definition names (k : ynode) (f : string) : Prop := ∃ v, v ≠ LNull ∧ k = YLeaf f v.
(** A text field: the text of any scalar, "" if null or not given. *)
Inductive text_given (f : string) (m : list (ynode * ynode)) : string → Prop :=
| tg_text k t v : (k, YLeaf t v) ∈ m → names k f → v ≠ LNull → text_given f m t
| tg_null k t : (k, YLeaf t LNull) ∈ m → names k f → text_given f m ""
| tg_none : (∀ k n, (k, n) ∈ m → ¬ names k f) → text_given f m "".
(** The members that name none of the fields [reserved], with what they show; members with
    a null key are passed over. *)
Inductive options_given (reserved : list string) : list (ynode * ynode) → ymap → Prop :=
| og_end : options_given reserved [] []
| og_null t n m es : options_given reserved m es → options_given reserved ((YLeaf t LNull, n) :: m) es
| og_field k f n m es : names k f → f ∈ reserved → options_given reserved m es → options_given reserved ((k, n) :: m) es
| og_option k f n v m es : names k f → f ∉ reserved → shows n v → options_given reserved m es →
    options_given reserved ((k, n) :: m) ((f, v) :: es).
(** A processor's options; a field holding a list of processors; such a list, null being
    the empty one; a processor, null being one without a name; its members. *)
Inductive block_says : ynode → yocfg → Prop :=
| bs_block m id cond onf es cfg : distinct_keys m →
    text_given "id" m id → text_given "if" m cond → list_given "on_failure" m onf →
    options_given ["id"; "if"; "on_failure"] m es → as_map es cfg →
    block_says (YMap m) (OptCfg id cond onf cfg)
with list_given : string → list (ynode * ynode) → list ypcfg → Prop :=
| lg_list f m k n ps : (k, n) ∈ m → names k f → procs_say n ps → list_given f m ps
| lg_none f m : (∀ k n, (k, n) ∈ m → ¬ names k f) → list_given f m []
with procs_say : ynode → list ypcfg → Prop :=
| ps_null t : procs_say (YLeaf t LNull) []
| ps_list l ps : Forall2 proc_says l ps → procs_say (YSeq l) ps
with proc_says : ynode → ypcfg → Prop :=
| pr_null t : proc_says (YLeaf t LNull) []
| pr_proc m es p : distinct_keys m → members_say m es → as_map es p → proc_says (YMap m) p
with members_say : list (ynode * ynode) → list (string * option yocfg) → Prop :=
| ms_end : members_say [] []
| ms_null t n m es : members_say m es → members_say ((YLeaf t LNull, n) :: m) es
| ms_nil k f t m es : names k f → members_say m es → members_say ((k, YLeaf t LNull) :: m) ((f, None) :: es)
| ms_block k f n c m es : names k f → block_says n c → members_say m es → members_say ((k, n) :: m) ((f, Some c) :: es).
(** Every key is a scalar. *)
Definition scalar_keys (m : list (ynode * ynode)) : Prop := ∀ k n, (k, n) ∈ m → ∃ t v, k = YLeaf t v.
(** A definition; null is none. *)
Inductive definition_says : ynode → option (config ymap) → Prop :=
| ds_null t : definition_says (YLeaf t LNull) None
| ds_def m id desc procs onf : distinct_keys m → scalar_keys m →
    text_given "id" m id → text_given "description" m desc →
    list_given "processors" m procs → list_given "on_failure" m onf →
    definition_says (YMap m) (Some (mkConfig id desc procs onf)).

(** ** Proofs *)
Section ynode_ind.
  Variable P : ynode → Prop.
  Hypothesis HLeaf : ∀ t v, P (YLeaf t v).
  Hypothesis HSeq : ∀ l, Forall P l → P (YSeq l).
  Hypothesis HMap : ∀ m, Forall (λ kn, P kn.1 ∧ P kn.2) m → P (YMap m).
  Fixpoint ynode_ind' (n : ynode) : P n :=
    match n with
    | YLeaf t v => HLeaf t v
    | YSeq l => HSeq l ((fix go (l : list ynode) : Forall P l :=
                           match l with
                           | [] => Forall_nil_2 P
                           | x :: l' => Forall_cons_2 P x l' (ynode_ind' x) (go l')
                           end) l)
    | YMap m => HMap m ((fix go (m : list (ynode * ynode)) : Forall (λ kn, P kn.1 ∧ P kn.2) m :=
                           match m with
                           | [] => Forall_nil_2 _
                           | kn :: m' => Forall_cons_2 (λ kn, P kn.1 ∧ P kn.2) kn m' (conj (ynode_ind' kn.1) (ynode_ind' kn.2)) (go m')
                           end) m)
    end.
End ynode_ind.

Lemma alike_iff k k' : alike k k' ↔ kind_of k = kind_of k' ∧ text_of k = text_of k'.
Proof.
  split; [by destruct 1|]. destruct k, k'; cbn [kind_of text_of]; intros [E1 E2]; try done; try (by constructor). subst. constructor.
Qed.
Lemma distinct_cons k n m : distinct_keys ((k, n) :: m) ↔ (∀ k' n', (k', n') ∈ m → ¬ alike k k') ∧ distinct_keys m.
Proof.
  split.
  - intros H. split.
    + intros k' n' Hin Ha. apply elem_of_list_lookup in Hin as [i Hi]. by specialize (H O (S i) (k, n) (k', n') eq_refl Hi Ha).
    + intros i j kn kn' Hi Hj Ha. specialize (H (S i) (S j) kn kn' Hi Hj Ha). by injection H.
  - intros [H1 H2] [|i] [|j] kn kn' Hi Hj Ha.
    + done.
    + injection Hi as <-. cbn [lookup list_lookup] in Hj. apply elem_of_list_lookup_2 in Hj. destruct kn'. by destruct (H1 _ _ Hj).
    + injection Hj as <-. cbn [lookup list_lookup] in Hi. apply elem_of_list_lookup_2 in Hi. destruct kn as [k' n'].
      apply alike_iff in Ha. destruct (H1 _ _ Hi). apply alike_iff. cbn [fst] in Ha. naive_solver.
    + f_equal. by apply (H2 i j kn kn').
Qed.
Lemma repeated_iff m : repeated m = false ↔ distinct_keys m.
Proof.
  induction m as [|[k n] m IH]; [split; [|done]; intros _ i j kn kn' H; by rewrite lookup_nil in H|].
  rewrite distinct_cons, <- IH. cbn [repeated]. rewrite orb_false_iff. apply and_iff_compat_r.
  rewrite <- not_true_iff_false, existsb_exists. split.
  - intros H k' n' Hin Ha. apply H. exists (k', n'). split; [by apply elem_of_list_In|]. apply alike_iff in Ha as [-> ->].
    by rewrite Nat.eqb_refl, String.eqb_refl.
  - intros H ([k' n'] & Hin & Ha). apply elem_of_list_In in Hin. apply (H _ _ Hin), alike_iff.
    apply andb_true_iff in Ha as [Ha1 Ha2]. split; [by apply Nat.eqb_eq|by apply String.eqb_eq].
Qed.
Lemma repeated_true m : repeated m = true → ¬ distinct_keys m.
Proof. intros E H. apply repeated_iff in H. congruence. Qed.
Lemma as_map_iff {A} (es fs : list (string * A)) : NoDup (map fst es) → as_map es fs ↔ fs = mof_list es.
Proof.
  intros Hn. split.
  - intros [Hp Hs]. symmetry. by apply mof_list_perm.
  - intros ->. split; [|apply msorted_mof_list]. apply NoDup_Permutation.
    + by apply (NoDup_fmap_1 fst).
    + apply (NoDup_fmap_1 fst). apply msorted_NoDup, msorted_mof_list.
    + intros [k v]. rewrite (proj2 (mof_list_later es) k v). split.
      * intros (l1 & l2 & ->)%elem_of_list_split. exists l1, l2. split; [done|].
        rewrite map_app in Hn. apply NoDup_app in Hn as (_ & _ & Hn). cbn [map] in Hn. by apply NoDup_cons in Hn as [? _].
      * intros (l1 & l2 & -> & _). apply elem_of_app. right. left.
Qed.

Lemma string_key_iff kn : string_key kn = true ↔ kn.1 = YLeaf (text_of kn.1) LStr.
Proof. destruct kn as [[t []| |] n]; cbn; split; done. Qed.
Lemma string_keys_NoDup m es (R : ynode * ynode → string * yval → Prop) :
  distinct_keys m → Forall2 (λ kn fv, kn.1 = YLeaf fv.1 LStr ∧ R kn fv) m es → NoDup (map fst es).
Proof.
  intros Hd HF. revert Hd. induction HF as [|[k n] [f v] m es [H1 _] HF IH]; intros Hd; [apply NoDup_nil_2|].
  apply distinct_cons in Hd as [Hk Hd]. cbn [map]. apply NoDup_cons. split; [|by apply IH].
  intros Hin. apply elem_of_list_fmap in Hin as ([f' v'] & Ef & Hin). cbn [fst] in *. subst f' k.
  apply elem_of_list_lookup in Hin as [i Hi]. destruct (Forall2_lookup_r _ _ _ _ _ HF Hi) as ([k' n'] & Hi' & E' & _).
  cbn [fst] in E'. subst k'. apply (Hk (YLeaf f LStr) n'); [by eapply elem_of_list_lookup_2|constructor].
Qed.
Lemma leaf_shows t v y : shows (YLeaf t v) y ↔ leaf_val t v = y.
Proof. split; [by inversion 1|]. intros <-. destruct v; constructor. Qed.
Lemma omap_iff {A B} (f : A → option B) l ys : osequence (map f l) = Some ys ↔ Forall2 (λ x y, f x = Some y) l ys.
Proof.
  revert ys. induction l as [|x l IH]; intros ys; cbn [map osequence].
  - split; [intros [= <-]; constructor|by inversion 1].
  - split.
    + destruct (f x) as [y|] eqn:E; [|done]. destruct (osequence (map f l)) as [ys'|]; [|done]. intros [= <-].
      constructor; [done|by apply IH].
    + inversion 1 as [|? y ? ys' H1 H2]; subst. apply IH in H2. by rewrite H1, H2.
Qed.
Lemma Forall2_on {A B} (P Q : A → B → Prop) l : Forall (λ x, ∀ y, P x y ↔ Q x y) l → ∀ ys, Forall2 P l ys ↔ Forall2 Q l ys.
Proof.
  induction 1 as [|x l Hx Hl IH]; intros ys; [by split; inversion 1|].
  split; inversion 1; subst; constructor; try (by apply Hx); by apply IH.
Qed.
Lemma all_string_keys m : forallb string_key m = true ↔ ∀ kn, kn ∈ m → ∃ t, kn.1 = YLeaf t LStr.
Proof.
  rewrite forallb_forall. split.
  - intros H kn Hin. apply elem_of_list_In, H, string_key_iff in Hin. eauto.
  - intros H kn Hin. apply elem_of_list_In, H in Hin as [t Ht]. apply string_key_iff. by rewrite Ht.
Qed.
Lemma any_iff n : ∀ v, shows n v ↔ decode_any n = Some v.
Proof.
  induction n as [t lv|l IH|m IH] using ynode_ind'; intros v.
  - rewrite leaf_shows. cbn [decode_any]. split; congruence.
  - cbn [decode_any]. pose proof (Forall2_on _ _ l IH) as Hl. split.
    + inversion 1 as [| | | | | | |? vs HF| |]; subst. apply Hl, omap_iff in HF. by rewrite HF.
    + destruct (osequence _) as [vs|] eqn:E; [|done]. intros [= <-]. apply sh_list, Hl, omap_iff, E.
  - cbn [decode_any]. destruct (repeated m) eqn:Er.
    { apply repeated_true in Er. split; [by inversion 1|done]. }
    apply repeated_iff in Er. destruct (forallb string_key m) eqn:Ek.
    + pose proof (proj1 (all_string_keys m) Ek) as Hk.
      assert (∀ es, osequence (map (λ kv : ynode * ynode, let '(k, n) := kv in
                  match decode_any n with Some v => Some (text_of k, v) | None => None end) m) = Some es ↔
              Forall2 (λ kn fv, kn.1 = YLeaf fv.1 LStr ∧ shows kn.2 fv.2) m es) as Hm.
      { intros es. rewrite omap_iff. apply Forall2_on, Forall_forall. intros [k n] Hin [f w]. cbn [fst snd].
        destruct (Hk _ Hin) as [t Et]. cbn [fst] in Et. subst k. rewrite Forall_forall in IH. destruct (IH _ Hin) as [_ IHn].
        cbn [snd] in IHn. rewrite IHn. cbn [text_of]. destruct (decode_any n); naive_solver. }
      split.
      * inversion 1 as [| | | | | | | |? es fs _ HF Has|? es _ (kn & Hin & Hne) _]; subst; [|by destruct (Hk _ Hin) as [t Et]; destruct (Hne t)].
        pose proof HF as HF'. apply Hm in HF'. rewrite HF'. apply (as_map_iff es) in Has as ->; [done|]. exact (string_keys_NoDup m es (λ kn fv, shows kn.2 fv.2) Er HF).
      * destruct (osequence _) as [es|] eqn:E; [|done]. intros [= <-]. pose proof (proj1 (Hm es) eq_refl) as HF. clear E. eapply sh_map; [done|exact HF|].
        apply as_map_iff; [exact (string_keys_NoDup m es (λ kn fv, shows kn.2 fv.2) Er HF)|done].
    + assert (∃ kn, kn ∈ m ∧ ∀ t, kn.1 ≠ YLeaf t LStr) as Hne.
      { clear -Ek. induction m as [|kn m IH]; [done|]. cbn [forallb] in Ek. apply andb_false_iff in Ek as [E|E].
        - exists kn. split; [left|]. intros t Ht. assert (string_key kn = true) by (apply string_key_iff; by rewrite Ht). congruence.
        - destruct (IH E) as (kn' & Hin & H). exists kn'. split; [by right|done]. }
      assert (∀ es, osequence (map (λ kv : ynode * ynode, let '(k, n) := kv in
                  match k with
                  | YLeaf t kv => match decode_any n with Some v => Some (leaf_val t kv, v) | None => None end
                  | _ => None
                  end) m) = Some es ↔
              Forall2 (λ kn uv, (∃ t v, kn.1 = YLeaf t v) ∧ shows kn.1 uv.1 ∧ shows kn.2 uv.2) m es) as Hm.
      { intros es. rewrite omap_iff. apply Forall2_on, Forall_forall. intros [k n] Hin [u w]. cbn [fst snd].
        rewrite Forall_forall in IH. destruct (IH _ Hin) as [_ IHn]. cbn [snd] in IHn. rewrite IHn.
        destruct k as [t lv| |]; [rewrite leaf_shows|naive_solver..]. destruct (decode_any n); naive_solver. }
      split.
      * inversion 1 as [| | | | | | | |? es fs _ HF Has|? es _ _ HF]; subst; [|by rewrite (proj2 (Hm es) HF)].
        exfalso. destruct Hne as ([k n] & Hin & Hne). apply elem_of_list_lookup in Hin as [i Hi].
        destruct (Forall2_lookup_l _ _ _ _ _ HF Hi) as ([f w] & _ & Ef & _). by apply (Hne f).
      * destruct (osequence _) as [es|] eqn:E; [|done]. intros [= <-]. apply sh_general; [done|done|exact (proj1 (Hm es) eq_refl)].
Qed.

(** Structs. *)
Definition name_of (k : ynode) : option string := match k with YLeaf _ LNull => None | YLeaf t _ => Some t | _ => None end.
Lemma names_of k f : names k f ↔ name_of k = Some f.
Proof.
  split; [by intros ([] & Hv & ->)|]. destruct k as [t v| |]; [|done..]. intros E. exists v. destruct v; by simplify_eq/=.
Qed.
Lemma names_unique k f g : names k f → names k g → f = g.
Proof. rewrite !names_of. congruence. Qed.
Lemma names_alike k k' f : names k f → names k' f → alike k k'.
Proof. intros (v & _ & ->) (v' & _ & ->). constructor. Qed.
Lemma key_cases k : (∃ t, k = YLeaf t LNull) ∨ (∃ f, names k f) ∨ (∀ t v, k ≠ YLeaf t v).
Proof.
  destruct k as [t v| |]; [|by right; right..]. destruct v; [left; by eexists|right; left; exists t; refine (ex_intro _ _ (conj _ eq_refl)); done..].
Qed.
Fixpoint field (f : string) (m : list (ynode * ynode)) : option ynode :=
  match m with
  | [] => None
  | (k, n) :: m' => if decide (name_of k = Some f) then Some n else field f m'
  end.
Lemma field_named f k n m : names k f → field f ((k, n) :: m) = Some n.
Proof. intros H. apply names_of in H. cbn [field]. by rewrite decide_True. Qed.
Lemma field_other f k n m : ¬ names k f → field f ((k, n) :: m) = field f m.
Proof. intros H. rewrite names_of in H. cbn [field]. by rewrite decide_False. Qed.
Lemma field_none f m : field f m = None ↔ ∀ k n, (k, n) ∈ m → ¬ names k f.
Proof.
  induction m as [|[k n] m IH].
  - split; [|done]. intros _ k n H. by apply elem_of_nil in H.
  - destruct (decide (name_of k = Some f)) as [E|E].
    + apply names_of in E. rewrite field_named by done. split; [done|]. intros H. destruct (H k n); [left|done].
    + rewrite <- names_of in E. rewrite field_other by done. rewrite IH. split.
      * intros H k' n' [[= -> ->]|Hin]%elem_of_cons; [done|by apply (H _ _ Hin)].
      * intros H k' n' Hin. apply (H k' n'). by right.
Qed.
Lemma field_some f m n : distinct_keys m → field f m = Some n ↔ ∃ k, (k, n) ∈ m ∧ names k f.
Proof.
  induction m as [|[k n'] m IH]; intros Hd.
  - split; [done|]. intros (k & H & _). by apply elem_of_nil in H.
  - apply distinct_cons in Hd as [Hk Hd]. destruct (decide (name_of k = Some f)) as [E|E].
    + apply names_of in E. rewrite field_named by done. split.
      * intros [= <-]. exists k. split; [left|done].
      * intros (k' & [[= -> ->]|Hin]%elem_of_cons & Hn); [done|]. destruct (Hk _ _ Hin). by eapply names_alike.
    + rewrite <- names_of in E. rewrite field_other by done. rewrite IH by done. split.
      * intros (k' & Hin & Hn). exists k'. split; [by right|done].
      * intros (k' & [[= -> ->]|Hin]%elem_of_cons & Hn); [done|]. by exists k'.
Qed.
Lemma field_rest f k n m : distinct_keys ((k, n) :: m) → names k f → field f m = None.
Proof.
  intros [Hk _]%distinct_cons Hf. apply field_none. intros k' n' Hin Hn. apply (Hk _ _ Hin). by eapply names_alike.
Qed.
Lemma struct_null {S} (set : string → ynode → S → option S) t n m st :
  decode_struct set ((YLeaf t LNull, n) :: m) st = decode_struct set m st.
Proof. done. Qed.
Lemma struct_name {S} (set : string → ynode → S → option S) k f n m st : names k f →
  decode_struct set ((k, n) :: m) st = match set f n st with Some st' => decode_struct set m st' | None => None end.
Proof. intros (v & Hv & ->). by destruct v. Qed.
Lemma struct_bad {S} (set : string → ynode → S → option S) k n m st : (∀ t v, k ≠ YLeaf t v) → decode_struct set ((k, n) :: m) st = None.
Proof. intros H. destruct k as [t v| |]; [by destruct (H t v)|done..]. Qed.

Definition text_at (f : string) (m : list (ynode * ynode)) (s s' : string) : Prop :=
  match field f m with None => s' = s | Some n => decode_text n s = Some s' end.
Definition list_at (f : string) (m : list (ynode * ynode)) (l l' : list ypcfg) : Prop :=
  match field f m with None => l' = l | Some n => decode_procs decode_block n = Some l' end.
Lemma text_iff f m s : distinct_keys m → text_given f m s ↔ text_at f m "" s.
Proof.
  intros Hd. unfold text_at. split.
  - intros [k t v Hin Hk Hv|k t Hin Hk|Hn].
    + rewrite (proj2 (field_some f m _ Hd)) by eauto. by destruct v.
    + by rewrite (proj2 (field_some f m (YLeaf t LNull) Hd)) by eauto.
    + by rewrite (proj2 (field_none f m) Hn).
  - destruct (field f m) as [n|] eqn:E.
    + apply field_some in E as (k & Hin & Hk); [|done]. destruct n as [t v| |]; [|done..].
      assert (v = LNull ∨ v ≠ LNull) as [->|Hv] by (destruct v; auto).
      * intros [= <-]. by eapply tg_null.
      * intros H. assert (t = s) as -> by (destruct v; by simplify_eq/=). by eapply tg_text.
    + intros ->. by apply tg_none, field_none.
Qed.
Lemma list_iff f m l : distinct_keys m → (∀ k n, (k, n) ∈ m → ∀ ps, procs_say n ps ↔ decode_procs decode_block n = Some ps) →
  list_given f m l ↔ list_at f m [] l.
Proof.
  intros Hd IH. unfold list_at. split.
  - inversion 1 as [? ? k n ps Hin Hk Hp|? ? Hn]; subst.
    + rewrite (proj2 (field_some f m n Hd)) by eauto. by apply (IH _ _ Hin).
    + by rewrite (proj2 (field_none f m) Hn).
  - destruct (field f m) as [n|] eqn:E.
    + apply field_some in E as (k & Hin & Hk); [|done]. intros H. apply (IH _ _ Hin) in H. by eapply lg_list.
    + intros ->. by apply lg_none, field_none.
Qed.
Lemma text_at_skip f k n m s s' : ¬ names k f → text_at f ((k, n) :: m) s s' ↔ text_at f m s s'.
Proof. intros H. unfold text_at. by rewrite field_other. Qed.
Lemma list_at_skip f k n m s s' : ¬ names k f → list_at f ((k, n) :: m) s s' ↔ list_at f m s s'.
Proof. intros H. unfold list_at. by rewrite field_other. Qed.
Lemma text_at_hit f k n m s s' : distinct_keys ((k, n) :: m) → names k f →
  text_at f ((k, n) :: m) s s' ↔ ∃ s1, decode_text n s = Some s1 ∧ text_at f m s1 s'.
Proof.
  intros Hd H. unfold text_at. rewrite field_named by done. rewrite (field_rest f k n m Hd H). split; [by exists s'|]. by intros (s1 & E & ->).
Qed.
Lemma list_at_hit f k n m l l' : distinct_keys ((k, n) :: m) → names k f →
  list_at f ((k, n) :: m) l l' ↔ ∃ l1, decode_procs decode_block n = Some l1 ∧ list_at f m l1 l'.
Proof.
  intros Hd H. unfold list_at. rewrite field_named by done. rewrite (field_rest f k n m Hd H). split; [by exists l'|]. by intros (s1 & E & ->).
Qed.

Notation reserved3 := ["id"; "if"; "on_failure"] (only parsing).
Definition set_block (f : string) (n : ynode) (st : yocfg) : option yocfg :=
  let '(OptCfg id cond onf cfg) := st in
  if String.eqb f "id" then match decode_text n id with Some s => Some (OptCfg s cond onf cfg) | None => None end
  else if String.eqb f "if" then match decode_text n cond with Some s => Some (OptCfg id s onf cfg) | None => None end
  else if String.eqb f "on_failure" then match decode_procs decode_block n with Some l => Some (OptCfg id cond l cfg) | None => None end
  else match decode_any n with Some v => Some (OptCfg id cond onf (mset f v cfg)) | None => None end.
Lemma options_null rs t n m es : options_given rs ((YLeaf t LNull, n) :: m) es ↔ options_given rs m es.
Proof.
  split; [|apply og_null]. inversion 1 as [| |k f ? ? ? Hf|k f ? v ? ? Hf]; subst; [done|..]; by destruct Hf as (v' & Hv & [= -> <-]).
Qed.
Lemma options_field rs k f n m es : names k f → f ∈ rs → options_given rs ((k, n) :: m) es ↔ options_given rs m es.
Proof.
  intros Hf Hr. split; [|by apply (og_field _ k f)]. inversion 1 as [|? ? ? ? H'|? f' ? ? ? Hf'|? f' ? v ? ? Hf' Hr']; subst.
  - destruct Hf as (v' & Hv & [= -> <-]). done.
  - done.
  - rewrite (names_unique _ _ _ Hf' Hf) in Hr'. done.
Qed.
Lemma options_option rs k f n m es : names k f → f ∉ rs →
  options_given rs ((k, n) :: m) es ↔ ∃ v es', es = (f, v) :: es' ∧ shows n v ∧ options_given rs m es'.
Proof.
  intros Hf Hr. split.
  - inversion 1 as [|? ? ? ? H'|? f' ? ? ? Hf' Hr'|? f' ? v ? es' Hf' Hr']; subst.
    + destruct Hf as (v' & Hv & [= -> <-]). done.
    + rewrite (names_unique _ _ _ Hf' Hf) in Hr'. done.
    + rewrite (names_unique _ _ _ Hf' Hf). eauto.
  - intros (v & es' & -> & Hv & Ho). by eapply og_option.
Qed.
Lemma options_bad rs k n m es : (∀ t v, k ≠ YLeaf t v) → ¬ options_given rs ((k, n) :: m) es.
Proof.
  intros Hk. inversion 1 as [|t ? ? ? H'|? f' ? ? ? Hf' Hr'|? f' ? v ? es' Hf' Hr']; subst; [by eapply Hk|destruct Hf' as (? & _ & ->); by eapply Hk..].
Qed.
Lemma block_loop m : distinct_keys m → ∀ id cond onf cfg id' cond' onf' cfg',
  decode_struct set_block m (OptCfg id cond onf cfg) = Some (OptCfg id' cond' onf' cfg') ↔
  text_at "id" m id id' ∧ text_at "if" m cond cond' ∧ list_at "on_failure" m onf onf' ∧
  ∃ es, options_given reserved3 m es ∧ cfg' = fold_left (λ m kv, mset kv.1 kv.2 m) es cfg.
Proof.
  induction m as [|[k n] m IH]; intros Hd id cond onf cfg id' cond' onf' cfg'.
  { cbn. unfold text_at, list_at. cbn [field]. split.
    - intros [= -> -> -> ->]. split_and!; [done..|]. exists []. split; [constructor|done].
    - intros (-> & -> & -> & es & Ho & ->). by inversion Ho. }
  pose proof (proj2 (proj1 (distinct_cons _ _ _) Hd)) as Hd'. specialize (IH Hd').
  destruct (key_cases k) as [[t ->]|[[f Hf]|Hbad]].
  - rewrite struct_null, IH. setoid_rewrite options_null.
    assert (∀ f, ¬ names (YLeaf t LNull) f) as Hn by (intros f (v & Hv & [= -> <-]); done).
    by rewrite !text_at_skip, list_at_skip by done.
  - rewrite (struct_name _ k f) by done. unfold set_block at 1.
    assert (∀ g, g ≠ f → ¬ names k g) as Hother by (intros g Hg Hn; apply Hg; by eapply names_unique).
    destruct (String.eqb_spec f "id") as [->|H1].
    { setoid_rewrite (options_field _ k "id" n m); [|done|left]. rewrite text_at_hit by done. rewrite text_at_skip, list_at_skip by (by apply Hother).
      destruct (decode_text n id) as [s|]; [rewrite IH|]; naive_solver. }
    destruct (String.eqb_spec f "if") as [->|H2].
    { setoid_rewrite (options_field _ k "if" n m); [|done|right; left]. rewrite (text_at_hit "if") by done. rewrite text_at_skip, list_at_skip by (by apply Hother).
      destruct (decode_text n cond) as [s|]; [rewrite IH|]; naive_solver. }
    destruct (String.eqb_spec f "on_failure") as [->|H3].
    { setoid_rewrite (options_field _ k "on_failure" n m); [|done|right; right; left]. rewrite list_at_hit by done. rewrite !text_at_skip by (by apply Hother).
      destruct (decode_procs decode_block n) as [s|]; [rewrite IH|]; naive_solver. }
    setoid_rewrite (options_option _ k f n m); [|done|rewrite !elem_of_cons, elem_of_nil; naive_solver].
    rewrite !text_at_skip, list_at_skip by (apply Hother; congruence).
    setoid_rewrite any_iff. destruct (decode_any n) as [v|]; [rewrite IH|naive_solver]. split.
    + intros (E1 & E2 & E3 & es & Ho & ->). split_and!; [done..|]. exists ((f, v) :: es). split; [|done]. eauto.
    + intros (E1 & E2 & E3 & es & (v' & es' & -> & [= <-] & Ho) & ->). split_and!; [done..|]. by exists es'.
  - rewrite struct_bad by done. split; [done|]. intros (_ & _ & _ & es & Ho & _). by apply options_bad in Ho.
Qed.
Lemma options_NoDup rs m es : distinct_keys m → options_given rs m es → NoDup (map fst es).
Proof.
  intros Hd Ho. revert Hd. induction Ho as [|t n m es Ho IH|k f n m es Hf Hr Ho IH|k f n v m es Hf Hr Hv Ho IH]; intros Hd;
    [apply NoDup_nil_2|apply IH; by apply distinct_cons in Hd as [_ ?]..|].
  apply distinct_cons in Hd as [Hk Hd]. cbn [map]. apply NoDup_cons. split; [|by apply IH].
  assert (∀ g, g ∈ map fst es → ∃ k' n', (k', n') ∈ m ∧ names k' g) as Hm.
  { clear -Ho. induction Ho as [|t n m es Ho IH|k f n m es Hf Hr Ho IH|k f n v m es Hf Hr Hv Ho IH]; intros g Hg.
    - by apply elem_of_nil in Hg.
    - destruct (IH g Hg) as (k' & n' & ? & ?). exists k', n'. split; [by right|done].
    - destruct (IH g Hg) as (k' & n' & ? & ?). exists k', n'. split; [by right|done].
    - cbn [map] in Hg. apply elem_of_cons in Hg as [->|Hg]; [exists k, n; split; [left|done]|].
      destruct (IH g Hg) as (k' & n' & ? & ?). exists k', n'. split; [by right|done]. }
  intros (k' & n' & Hin & Hn)%Hm. apply (Hk _ _ Hin). by eapply names_alike.
Qed.

(** Processors. *)
Definition block_fine (n : ynode) : Prop :=
  (∀ c, block_says n c ↔ decode_block n = Some c) ∧
  (∀ p, proc_says n p ↔ decode_proc decode_block n = Some p) ∧
  (∀ ps, procs_say n ps ↔ decode_procs decode_block n = Some ps).
Lemma null_block t c : ¬ block_says (YLeaf t LNull) c.
Proof. by inversion 1. Qed.
Lemma null_or_not n : (∃ t, n = YLeaf t LNull) ∨ (∀ t, n ≠ YLeaf t LNull).
Proof. destruct n as [t []| |]; [left; by eexists|right..]; done. Qed.
Lemma members_iff m : Forall (λ kn, block_fine kn.2) m → ∀ es, members_say m es ↔ decode_members decode_block m = Some es.
Proof.
  induction 1 as [|[k n] m [Hb _] Hm IH]; intros es.
  { split; [by inversion 1|]. intros [= <-]. constructor. }
  cbn [snd] in Hb. destruct (key_cases k) as [[t ->]|[[f Hf]|Hbad]].
  - transitivity (members_say m es).
    + split; [|apply ms_null]. inversion 1 as [| |k f ? ? ? Hf|k f ? v ? ? Hf]; subst; [done|..]; by destruct Hf as (v' & Hv & [= -> <-]).
    + apply IH.
  - pose proof Hf as (v & Hv & ->).
    assert (decode_members decode_block ((YLeaf f v, n) :: m) =
            match n with
            | YLeaf _ LNull => match decode_members decode_block m with Some es => Some ((f, None) :: es) | None => None end
            | _ => match decode_block n, decode_members decode_block m with Some c, Some es => Some ((f, Some c) :: es) | _, _ => None end
            end) as -> by (by destruct v).
    destruct (null_or_not n) as [[t ->]|Hnn].
    + split.
      * inversion 1 as [|? ? ? ? H'|? f' ? ? ? Hf' H'|? f' ? c ? ? Hf' Hc]; subst; [done| |by apply null_block in Hc].
        rewrite (names_unique _ _ _ Hf' Hf). apply IH in H'. by rewrite H'.
      * destruct (decode_members decode_block m) as [es'|] eqn:E; [|done]. intros [= <-]. apply ms_nil; [done|]. by apply IH.
    + assert ((match n with
            | YLeaf _ LNull => match decode_members decode_block m with Some es => Some ((f, None) :: es) | None => None end
            | _ => match decode_block n, decode_members decode_block m with Some c, Some es => Some ((f, Some c) :: es) | _, _ => None end
            end) = match decode_block n, decode_members decode_block m with Some c, Some es => Some ((f, Some c) :: es) | _, _ => None end) as ->.
      { destruct n as [t []| |]; try done. by destruct (Hnn t). }
      split.
      * inversion 1 as [|? ? ? ? H'|? f' t ? ? Hf' H'|? f' ? c ? ? Hf' Hc H']; subst; [done|by destruct (Hnn t)|].
        rewrite (names_unique _ _ _ Hf' Hf). apply IH in H'. apply Hb in Hc. by rewrite Hc, H'.
      * destruct (decode_block n) as [c|] eqn:Ec; [|done]. destruct (decode_members decode_block m) as [es'|] eqn:E; [|done].
        intros [= <-]. apply ms_block; [done|by apply Hb|by apply IH].
  - split.
    + inversion 1 as [|t ? ? ? H'|? f' t ? ? Hf' H'|? f' ? c ? ? Hf' Hc H']; subst; [by destruct (Hbad t LNull)|destruct Hf' as (w & _ & ->); by destruct (Hbad f' w)..].
    + destruct k as [t v| |]; [by destruct (Hbad t v)|done..].
Qed.
Lemma members_NoDup m es : distinct_keys m → members_say m es → NoDup (map fst es).
Proof.
  assert (∀ m es, members_say m es → ∀ g, g ∈ map fst es → ∃ k' n', (k', n') ∈ m ∧ names k' g) as Hm.
  { clear. induction m as [|[k n] m IH]; intros es; inversion 1 as [|t ? ? ? H'|? f' t ? es' Hf' H'|? f' ? c ? es' Hf' Hc H']; subst; intros g Hg.
    - by apply elem_of_nil in Hg.
    - destruct (IH es H' g Hg) as (k' & n' & ? & ?). exists k', n'. split; [by right|done].
    - cbn [map] in Hg. apply elem_of_cons in Hg as [->|Hg]; [by exists k, (YLeaf t LNull); split; [left|]|].
      destruct (IH es' H' g Hg) as (k' & n' & ? & ?). exists k', n'. split; [by right|done].
    - cbn [map] in Hg. apply elem_of_cons in Hg as [->|Hg]; [by exists k, n; split; [left|]|].
      destruct (IH es' H' g Hg) as (k' & n' & ? & ?). exists k', n'. split; [by right|done]. }
  revert es. induction m as [|[k n] m IH]; intros es Hd; inversion 1 as [|t ? ? ? H'|? f' t ? es' Hf' H'|? f' ? c ? es' Hf' Hc H']; subst.
  - apply NoDup_nil_2.
  - apply IH; [by apply distinct_cons in Hd as [_ ?]|done].
  - apply distinct_cons in Hd as [Hk Hd]. cbn [map]. apply NoDup_cons. split; [|by apply IH].
    intros (k' & n' & Hin & Hn)%(Hm _ _ H'). apply (Hk _ _ Hin). by eapply names_alike.
  - apply distinct_cons in Hd as [Hk Hd]. cbn [map]. apply NoDup_cons. split; [|by apply IH].
    intros (k' & n' & Hin & Hn)%(Hm _ _ H'). apply (Hk _ _ Hin). by eapply names_alike.
Qed.
Lemma block_all n : block_fine n.
Proof.
  induction n as [t v|l IH|m IH] using ynode_ind'; unfold block_fine.
  - split_and!; intros x.
    + split; [by inversion 1|done].
    + split; [by inversion 1|]. destruct v; try done. intros [= <-]. constructor.
    + split; [by inversion 1|]. destruct v; try done. intros [= <-]. constructor.
  - split_and!; intros x.
    + split; [by inversion 1|done].
    + split; [by inversion 1|done].
    + cbn [decode_procs]. rewrite omap_iff. transitivity (Forall2 proc_says l x).
      * split; [by inversion 1|]. intros H. by constructor.
      * apply Forall2_on. eapply Forall_impl; [exact IH|]. intros n (_ & H & _). exact H.
  - assert (Forall (λ kn, block_fine kn.2) m) as Hf.
    { eapply Forall_impl; [exact IH|]. intros kn [_ H]. exact H. }
    destruct (repeated m) eqn:Er.
    { pose proof (repeated_true m Er) as Hd. split_and!; intros x; (split; [by inversion 1|]).
      - cbn [decode_block]. by rewrite Er.
      - cbn [decode_proc]. by rewrite Er.
      - done. }
    pose proof (proj1 (repeated_iff m) Er) as Hd. split_and!.
    + intros [id cond onf cfg].
      assert (decode_block (YMap m) = decode_struct set_block m (OptCfg "" "" [] [])) as -> by (cbn [decode_block]; by rewrite Er).
      rewrite block_loop by done. rewrite <- !text_iff by done. rewrite <- list_iff; [|done|].
      2: { intros k n Hin ps. rewrite Forall_forall in Hf. by apply (Hf _ Hin). }
      split.
      * inversion 1 as [? ? ? ? es ? _ H1 H2 H3 H4 H5]; subst. split_and!; [done..|]. exists es. split; [done|].
        apply as_map_iff in H5; [done|]. by eapply options_NoDup.
      * intros (H1 & H2 & H3 & es & H4 & H5). apply (bs_block m id cond onf es cfg); try done.
        apply as_map_iff; [by eapply options_NoDup|done].
    + intros p. cbn [decode_proc]. rewrite Er. pose proof (members_iff m Hf) as Hm. split.
      * inversion 1 as [|? es ? _ He Ha]; subst. pose proof He as He'. apply Hm in He'. rewrite He'. f_equal. symmetry.
        apply as_map_iff; [by eapply members_NoDup|done].
      * destruct (decode_members decode_block m) as [es|] eqn:E; [|done]. intros [= <-]. pose proof (proj2 (Hm es) eq_refl) as He.
        apply (pr_proc m es); [done|done|]. apply as_map_iff; [by eapply members_NoDup|done].
    + intros ps. split; [by inversion 1|done].
Qed.

(** Definitions. *)
Definition set_config (f : string) (n : ynode) (c : config ymap) : option (config ymap) :=
  if String.eqb f "id" then match decode_text n (cf_id c) with Some s => Some (mkConfig s (cf_desc c) (cf_procs c) (cf_onf c)) | None => None end
  else if String.eqb f "description" then match decode_text n (cf_desc c) with Some s => Some (mkConfig (cf_id c) s (cf_procs c) (cf_onf c)) | None => None end
  else if String.eqb f "processors" then match decode_procs decode_block n with Some l => Some (mkConfig (cf_id c) (cf_desc c) l (cf_onf c)) | None => None end
  else if String.eqb f "on_failure" then match decode_procs decode_block n with Some l => Some (mkConfig (cf_id c) (cf_desc c) (cf_procs c) l) | None => None end
  else Some c.
Lemma scalar_keys_cons k n m : scalar_keys ((k, n) :: m) ↔ (∃ t v, k = YLeaf t v) ∧ scalar_keys m.
Proof.
  split.
  - intros H. split; [apply (H k n); left|]. intros k' n' Hin. apply (H k' n'). by right.
  - intros [H1 H2] k' n' [[= -> ->]|Hin]%elem_of_cons; [done|by apply (H2 _ _ Hin)].
Qed.
Lemma config_loop m : distinct_keys m → ∀ id desc ps onf id' desc' ps' onf',
  decode_struct set_config m (mkConfig id desc ps onf) = Some (mkConfig id' desc' ps' onf') ↔
  scalar_keys m ∧ text_at "id" m id id' ∧ text_at "description" m desc desc' ∧
  list_at "processors" m ps ps' ∧ list_at "on_failure" m onf onf'.
Proof.
  induction m as [|[k n] m IH]; intros Hd id desc ps onf id' desc' ps' onf'.
  { cbn. unfold text_at, list_at. cbn [field]. split.
    - intros [= -> -> -> ->]. split_and!; [|done..]. intros k n H. by apply elem_of_nil in H.
    - intros (_ & -> & -> & -> & ->). done. }
  pose proof (proj2 (proj1 (distinct_cons _ _ _) Hd)) as Hd'. specialize (IH Hd').
  rewrite scalar_keys_cons. destruct (key_cases k) as [[t ->]|[[f Hf]|Hbad]].
  - rewrite struct_null, IH. assert (∀ f, ¬ names (YLeaf t LNull) f) as Hn by (intros f (v & Hv & [= -> <-]); done).
    rewrite !text_at_skip, !list_at_skip by done. naive_solver.
  - rewrite (struct_name _ k f) by done. unfold set_config at 1. cbn [cf_id cf_desc cf_procs cf_onf].
    assert (∀ g, g ≠ f → ¬ names k g) as Hother by (intros g Hg Hn; apply Hg; by eapply names_unique).
    assert (∃ t v, k = YLeaf t v) as Hk by (destruct Hf as (v & _ & ->); eauto).
    destruct (String.eqb_spec f "id") as [->|H1].
    { rewrite text_at_hit by done. rewrite text_at_skip, !list_at_skip by (by apply Hother).
      destruct (decode_text n id) as [s|]; [rewrite IH|]; naive_solver. }
    destruct (String.eqb_spec f "description") as [->|H2].
    { rewrite (text_at_hit "description") by done. rewrite text_at_skip, !list_at_skip by (by apply Hother).
      destruct (decode_text n desc) as [s|]; [rewrite IH|]; naive_solver. }
    destruct (String.eqb_spec f "processors") as [->|H3].
    { rewrite (list_at_hit "processors") by done. rewrite !text_at_skip, list_at_skip by (by apply Hother).
      destruct (decode_procs decode_block n) as [s|]; [rewrite IH|]; naive_solver. }
    destruct (String.eqb_spec f "on_failure") as [->|H4].
    { rewrite (list_at_hit "on_failure") by done. rewrite !text_at_skip, list_at_skip by (by apply Hother).
      destruct (decode_procs decode_block n) as [s|]; [rewrite IH|]; naive_solver. }
    rewrite !text_at_skip, !list_at_skip by (apply Hother; congruence). rewrite IH. naive_solver.
  - rewrite struct_bad by done. split; [done|]. intros (((t & v & ->) & _) & _). by destruct (Hbad t v).
Qed.
Lemma config_iff n c : definition_says n c ↔ decode_config n = Some c.
Proof.
  split.
  - inversion 1 as [|m id desc ps onf Hd Hs H1 H2 H3 H4]; subst; [done|].
    assert (decode_config (YMap m) = match decode_struct set_config m (mkConfig "" "" [] []) with Some c => Some (Some c) | None => None end) as ->.
    { cbn [decode_config]. by rewrite (proj2 (repeated_iff m) Hd). }
    apply text_iff in H1, H2; [|done..]. apply list_iff in H3, H4; [|done|by intros; apply block_all..|done|by intros; apply block_all].
    by rewrite (proj2 (config_loop m Hd "" "" [] [] id desc ps onf)) by done.
  - destruct n as [t []|l|m]; try done; [intros [= <-]; constructor|].
    destruct (repeated m) eqn:Er; [cbn [decode_config]; by rewrite Er|]. pose proof (proj1 (repeated_iff m) Er) as Hd.
    assert (decode_config (YMap m) = match decode_struct set_config m (mkConfig "" "" [] []) with Some c => Some (Some c) | None => None end) as ->.
    { cbn [decode_config]. by rewrite Er. }
    destruct (decode_struct set_config m _) as [[id desc ps onf]|] eqn:E; [|done]. intros [= <-].
    apply config_loop in E as (Hs & H1 & H2 & H3 & H4); [|done]. apply ds_def; [done|done|by apply text_iff|by apply text_iff|..];
      (apply list_iff; [done|by intros; apply block_all|done]).
Qed.
