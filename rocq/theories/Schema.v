(** * processors.yml: internal/proctemplate/schema.go, with yaml.v3.

    As in Yaml.v a document is the tree of nodes yaml.v3 makes of its text; an alias is
    replaced by the node it stands for.  Here merge keys (<<) are decoded as yaml.v3 does
    (decode.go mappingStruct, mapping and merge, from the library's published source).  Not
    covered: merge keys inside a default or under common_fields, which are taken for ordinary
    members, a quoted "<<", aliases as keys, processors named by a number (1: ...) in a mapping
    that merges another with the same name.  A crash of the decoder (a key that cannot be
    hashed) counts as an error. *)
From Verif Require Export Yaml.
From Coq Require Import Lia.
Local Open Scope Z_scope.

(** ** The model *)
(** schema.go:37-44 ConfigurationOption *)
Record yoption : Type := mkYOpt {
  yo_name : string; yo_type : string; yo_required : bool; yo_optional : bool; yo_default : yval; yo_desc : string
}.
(** schema.go:32-35 Processor *)
Record yproc : Type := mkYProc { yp_desc : string; yp_conf : list yoption }.
(** yaml.v3 decode.go isMerge *)
Definition is_merge (k : ynode) : bool := match k with YLeaf t LStr => String.eqb t "<<" | _ => false end.
Definition in_list (f : string) (l : list string) : bool := existsb (String.eqb f) l.
(** The members of a mapping without its merge key; those named in [seen] (yaml.v3's
    mergedFields) are passed over, as are null keys. *)
Definition own_fields {S} (set : string → ynode → S → option S) : list (ynode * ynode) → list string → S → option (S * list string) :=
  fix go m seen st :=
    match m with
    | [] => Some (st, seen)
    | (k, n) :: m' =>
        if is_merge k then go m' seen st
        else
          match k with
          | YLeaf _ LNull => go m' seen st
          | YLeaf t _ =>
              if in_list t seen then go m' seen st
              else match set t n st with Some st' => go m' (t :: seen) st' | None => None end
          | _ => None
          end
    end.
(** A mapping into a struct or a map: its members, then what is merged, one mapping or a
    list of them; members already there are passed over. *)
Fixpoint decode_fields {S} (set : string → ynode → S → option S) (n : ynode) (seen : list string) (st : S) : option (S * list string) :=
  match n with
  | YMap m =>
      if repeated m then None
      else
        match own_fields set m seen st with
        | None => None
        | Some (st1, seen1) =>
            (fix merge (m : list (ynode * ynode)) : option (S * list string) :=
               match m with
               | [] => Some (st1, seen1)
               | (k, t) :: m' =>
                   if is_merge k then
                     match t with
                     | YMap _ => decode_fields set t seen1 st1
                     | YSeq l =>
                         (fix each (l : list ynode) (seen : list string) (st : S) : option (S * list string) :=
                            match l with
                            | [] => Some (st, seen)
                            | x :: l' =>
                                match decode_fields set x seen st with
                                | Some (st', seen') => each l' seen' st'
                                | None => None
                                end
                            end) l seen1 st1
                     | _ => None
                     end
                   else merge m'
               end) m
        end
  | _ => None
  end.
(** Into a bool that holds [old]; some strings are taken for booleans. *)
Definition decode_bool (n : ynode) (old : bool) : option bool :=
  match n with
  | YLeaf _ LNull => Some old
  | YLeaf _ (LBool b) => Some b
  | YLeaf t LStr => if in_list t ["y"; "Y"; "yes"; "on"] then Some true else if in_list t ["n"; "N"; "no"; "off"] then Some false else None
  | _ => None
  end.
(** The fields of a ConfigurationOption (schema.go:37-44); a member with another name is an
    error, KnownFields(true) (schema.go:93). *)
Definition set_option (f : string) (n : ynode) (o : yoption) : option yoption :=
  let '(mkYOpt name ty req opt def desc) := o in
  if String.eqb f "name" then match decode_text n name with Some s => Some (mkYOpt s ty req opt def desc) | None => None end
  else if String.eqb f "type" then match decode_text n ty with Some s => Some (mkYOpt name s req opt def desc) | None => None end
  else if String.eqb f "required" then match decode_bool n req with Some b => Some (mkYOpt name ty b opt def desc) | None => None end
  else if String.eqb f "optional" then match decode_bool n opt with Some b => Some (mkYOpt name ty req b def desc) | None => None end
  else if String.eqb f "default" then match decode_any n with Some v => Some (mkYOpt name ty req opt v desc) | None => None end
  else if String.eqb f "description" then match decode_text n desc with Some s => Some (mkYOpt name ty req opt def s) | None => None end
  else None.
Definition no_option : yoption := mkYOpt "" "" false false VNil "".
(** Into a []ConfigurationOption: null elements are left out. *)
Definition decode_option (n : ynode) : option (list yoption) :=
  match n with
  | YLeaf _ LNull => Some []
  | YMap _ => match decode_fields set_option n [] no_option with Some (o, _) => Some [o] | None => None end
  | _ => None
  end.
Definition decode_options (n : ynode) : option (list yoption) :=
  match n with
  | YLeaf _ LNull => Some []
  | YSeq l => match osequence (map decode_option l) with Some ls => Some (concat ls) | None => None end
  | _ => None
  end.
(** The fields of a Processor (schema.go:32-35). *)
Definition set_proc (f : string) (n : ynode) (p : yproc) : option yproc :=
  let '(mkYProc desc conf) := p in
  if String.eqb f "description" then match decode_text n desc with Some s => Some (mkYProc s conf) | None => None end
  else if String.eqb f "configuration" then match decode_options n with Some l => Some (mkYProc desc l) | None => None end
  else None.
Definition no_proc : yproc := mkYProc "" [].
Definition decode_proc_def (n : ynode) : option yproc :=
  match n with
  | YLeaf _ LNull => Some no_proc
  | YMap _ => match decode_fields set_proc n [] no_proc with Some (p, _) => Some p | None => None end
  | _ => None
  end.
(** Into a map[string]Processor. *)
Definition set_entry (f : string) (n : ynode) (m : list (string * yproc)) : option (list (string * yproc)) :=
  match decode_proc_def n with Some p => Some (mset f p m) | None => None end.
Definition decode_entry (n : ynode) : option (list (string * yproc)) :=
  match n with
  | YLeaf _ LNull => Some []
  | YMap _ => match decode_fields set_entry n [] [] with Some (m, _) => Some m | None => None end
  | _ => None
  end.
Definition decode_entries (n : ynode) : option (list (list (string * yproc))) :=
  match n with
  | YLeaf _ LNull => Some []
  | YSeq l => osequence (map decode_entry l)
  | _ => None
  end.
(** common_fields: a map[string]interface{}; nothing uses it. *)
Definition decode_common (n : ynode) : option () :=
  match n with
  | YLeaf _ LNull => Some ()
  | YMap m => if repeated m then None else decode_struct (λ _ n _, match decode_any n with Some _ => Some () | None => None end) m ()
  | _ => None
  end.
(** The fields of Processors (schema.go:27-30). *)
Definition set_file (f : string) (n : ynode) (ps : list (list (string * yproc))) : option (list (list (string * yproc))) :=
  if String.eqb f "common_fields" then match decode_common n with Some _ => Some ps | None => None end
  else if String.eqb f "processors" then decode_entries n
  else None.
(** schema.go:84-100 ReadProcessorsYAMLFile; [Some None]: a nil pointer and no error. *)
Definition ReadProcessorsYAMLFile (f : yfile) : option (option (list (list (string * yproc)))) :=
  match f with
  | FirstDocument (YLeaf _ LNull) => Some None
  | FirstDocument (YMap m) => match decode_fields set_file (YMap m) [] [] with Some (ps, _) => Some (Some ps) | None => None end
  | _ => None
  end.

(** ** Specification *)
Definition merge_key (k : ynode) : Prop := k = YLeaf "<<" LStr.
(** The members of a mapping other than the merge key, null keys passed over. *)
Inductive own_members : list (ynode * ynode) → list (string * ynode) → Prop :=
| om_end : own_members [] []
| om_merge k n m es : merge_key k → own_members m es → own_members ((k, n) :: m) es
| om_null t n m es : own_members m es → own_members ((YLeaf t LNull, n) :: m) es
| om_own k f n m es : ¬ merge_key k → names k f → own_members m es → own_members ((k, n) :: m) ((f, n) :: es).
(** All the members of a mapping: first its own, then those of the mappings merged into it,
    in order. *)
Inductive members : ynode → list (string * ynode) → Prop :=
| mb_map m own rest : distinct_keys m → own_members m own → merged m rest → members (YMap m) (own ++ rest)
with merged : list (ynode * ynode) → list (string * ynode) → Prop :=
| mg_none m : (∀ k n, (k, n) ∈ m → ¬ merge_key k) → merged m []
| mg_one m k n es : (k, n) ∈ m → merge_key k → members n es → merged m es
| mg_list m k l es : (k, YSeq l) ∈ m → merge_key k → all_members l es → merged m es
with all_members : list ynode → list (string * ynode) → Prop :=
| am_end : all_members [] []
| am_next n l es es' : members n es → all_members l es' → all_members (n :: l) (es ++ es').
(** The first member with the name [f] has the value [n]: the one that counts. *)
Definition given (es : list (string * ynode)) (f : string) (n : ynode) : Prop :=
  ∃ a b, es = a ++ (f, n) :: b ∧ f ∉ map fst a.
Definition absent (es : list (string * ynode)) (f : string) : Prop := f ∉ map fst es.
(** A field is what its value says, if it is given, or else [zero]. *)
Definition says {A} (value : ynode → A → Prop) (zero : A) (es : list (string * ynode)) (f : string) (x : A) : Prop :=
  (∃ n, given es f n ∧ value n x) ∨ absent es f ∧ x = zero.
(** The text of a scalar; a truth value, also yes, no, on, off, y and n. *)
Inductive text_value : ynode → string → Prop :=
| tv_null t : text_value (YLeaf t LNull) ""
| tv_text t v : v ≠ LNull → text_value (YLeaf t v) t.
Inductive bool_value : ynode → bool → Prop :=
| bv_null t : bool_value (YLeaf t LNull) false
| bv_bool t b : bool_value (YLeaf t (LBool b)) b
| bv_yes t : t ∈ ["y"; "Y"; "yes"; "on"] → bool_value (YLeaf t LStr) true
| bv_no t : t ∈ ["n"; "N"; "no"; "off"] → bool_value (YLeaf t LStr) false.
(** No member has another name. *)
Definition only_fields (fs : list string) (es : list (string * ynode)) : Prop := ∀ f, f ∈ map fst es → f ∈ fs.
Inductive option_says : ynode → yoption → Prop :=
| os_option n es name ty req opt def desc : members n es →
    only_fields ["name"; "type"; "required"; "optional"; "default"; "description"] es →
    says text_value "" es "name" name → says text_value "" es "type" ty →
    says bool_value false es "required" req → says bool_value false es "optional" opt →
    says shows VNil es "default" def → says text_value "" es "description" desc →
    option_says n (mkYOpt name ty req opt def desc).
(** A list of options; null ones are left out. *)
Inductive options_say : list ynode → list yoption → Prop :=
| op_end : options_say [] []
| op_null t l os : options_say l os → options_say (YLeaf t LNull :: l) os
| op_next n o l os : option_says n o → options_say l os → options_say (n :: l) (o :: os).
Inductive configuration_says : ynode → list yoption → Prop :=
| cs_null t : configuration_says (YLeaf t LNull) []
| cs_list l os : options_say l os → configuration_says (YSeq l) os.
Inductive processor_says : ynode → yproc → Prop :=
| ps_nothing t : processor_says (YLeaf t LNull) no_proc
| ps_processor n es desc conf : members n es → only_fields ["description"; "configuration"] es →
    says text_value "" es "description" desc → says configuration_says [] es "configuration" conf →
    processor_says n (mkYProc desc conf).
(** An entry of the list: each name with what its first member says. *)
Inductive entry_says : ynode → list (string * yproc) → Prop :=
| es_null t : entry_says (YLeaf t LNull) []
| es_entry n es ps : members n es → msorted ps → (∀ f n, given es f n → ∃ p, processor_says n p) →
    (∀ f p, (f, p) ∈ ps ↔ ∃ n, given es f n ∧ processor_says n p) → entry_says n ps.
Inductive entries_say : ynode → list (list (string * yproc)) → Prop :=
| en_null t : entries_say (YLeaf t LNull) []
| en_list l ps : Forall2 entry_says l ps → entries_say (YSeq l) ps.
(** Any mapping of names to data. *)
Inductive common_says : ynode → () → Prop :=
| co_null t : common_says (YLeaf t LNull) ()
| co_map m : distinct_keys m → scalar_keys m → (∀ k n, (k, n) ∈ m → (∃ t, k = YLeaf t LNull) ∨ ∃ v, shows n v) → common_says (YMap m) ().
Inductive file_says : ynode → option (list (list (string * yproc))) → Prop :=
| fs_null t : file_says (YLeaf t LNull) None
| fs_file n es ps : members n es → only_fields ["common_fields"; "processors"] es →
    says common_says () es "common_fields" () → says entries_say [] es "processors" ps →
    file_says n (Some ps).

(** ** Proofs *)
Lemma is_merge_iff k : is_merge k = true ↔ merge_key k.
Proof.
  unfold merge_key. destruct k as [t []| |]; cbn; try (split; discriminate). rewrite String.eqb_eq. split; [by intros ->|congruence].
Qed.
Lemma is_merge_false k : is_merge k = false ↔ ¬ merge_key k.
Proof. rewrite <- is_merge_iff. by destruct (is_merge k). Qed.
Lemma in_list_iff f l : in_list f l = true ↔ f ∈ l.
Proof.
  unfold in_list. rewrite existsb_exists. split.
  - intros (x & Hx & E). apply String.eqb_eq in E. subst. by apply elem_of_list_In.
  - intros H. exists f. split; [by apply elem_of_list_In|by apply String.eqb_eq].
Qed.
Lemma in_list_false f l : in_list f l = false ↔ f ∉ l.
Proof. rewrite <- in_list_iff. by destruct (in_list f l). Qed.

(** The members of a mapping, in the order in which they are looked at. *)
Fixpoint own_list (m : list (ynode * ynode)) : option (list (string * ynode)) :=
  match m with
  | [] => Some []
  | (k, n) :: m' =>
      if is_merge k then own_list m'
      else match k with
           | YLeaf _ LNull => own_list m'
           | YLeaf t _ => match own_list m' with Some es => Some ((t, n) :: es) | None => None end
           | _ => None
           end
  end.
Fixpoint member_list (n : ynode) : option (list (string * ynode)) :=
  match n with
  | YMap m =>
      if repeated m then None
      else match own_list m with
           | None => None
           | Some own =>
               match (fix merge (m : list (ynode * ynode)) : option (list (string * ynode)) :=
                        match m with
                        | [] => Some []
                        | (k, t) :: m' =>
                            if is_merge k then
                              match t with
                              | YMap _ => member_list t
                              | YSeq l => match osequence (map member_list l) with Some ls => Some (concat ls) | None => None end
                              | _ => None
                              end
                            else merge m'
                        end) m with
               | Some es => Some (own ++ es)
               | None => None
               end
           end
  | _ => None
  end.
Fixpoint merge_list (m : list (ynode * ynode)) : option (list (string * ynode)) :=
  match m with
  | [] => Some []
  | (k, t) :: m' =>
      if is_merge k then
        match t with
        | YMap _ => member_list t
        | YSeq l => match osequence (map member_list l) with Some ls => Some (concat ls) | None => None end
        | _ => None
        end
      else merge_list m'
  end.
Lemma member_list_map m : member_list (YMap m) =
  if repeated m then None else match own_list m, merge_list m with Some own, Some es => Some (own ++ es) | _, _ => None end.
Proof. cbn [member_list]. destruct (repeated m); [done|]. by destruct (own_list m). Qed.

Lemma own_iff m es : own_list m = Some es ↔ own_members m es.
Proof.
  split.
  - revert es. induction m as [|[k n] m IH]; intros es; cbn [own_list]; [intros [= <-]; constructor|].
    destruct (is_merge k) eqn:Em. { apply is_merge_iff in Em. intros H. by apply om_merge, IH. }
    apply is_merge_false in Em. destruct k as [t v| |]; [|done..].
    destruct v; try (destruct (own_list m) as [es'|]; [|done]; intros [= <-]; apply om_own; [done|by (eexists; split; [|reflexivity])|by apply IH]).
    intros H. by apply om_null, IH.
  - induction 1 as [|k n m es Hk _ IH|t n m es _ IH|k f n m es Hk (v & Hv & ->) _ IH]; cbn [own_list]; [done| |done|].
    + by rewrite (proj2 (is_merge_iff k) Hk).
    + rewrite (proj2 (is_merge_false _) Hk), IH. by destruct v.
Qed.
Lemma merge_list_none (m : list (ynode * ynode)) : (∀ k n, (k, n) ∈ m → ¬ merge_key k) → merge_list m = Some [].
Proof.
  induction m as [|[k n] m IH]; intros H; [done|]. cbn [merge_list].
  rewrite (proj2 (is_merge_false k)) by (apply (H k n); left). apply IH. intros k' n' Hin. apply (H k' n'). by right.
Qed.
Lemma merge_list_some m k n : distinct_keys m → (k, n) ∈ m → merge_key k → merge_list m =
  match n with YMap _ => member_list n | YSeq l => match osequence (map member_list l) with Some ls => Some (concat ls) | None => None end | _ => None end.
Proof.
  intros Hd Hin Hk. induction m as [|[k' n'] m IH]; [by apply elem_of_nil in Hin|]. apply distinct_cons in Hd as [Hn Hd]. cbn [merge_list].
  apply elem_of_cons in Hin as [[= <- <-]|Hin]; [by rewrite (proj2 (is_merge_iff k) Hk)|].
  rewrite (proj2 (is_merge_false k')); [by apply IH|]. intros Hk'. apply (Hn _ _ Hin). rewrite Hk, Hk'. constructor.
Qed.
Lemma merge_cases (m : list (ynode * ynode)) : (∀ k n, (k, n) ∈ m → ¬ merge_key k) ∨ ∃ k n, (k, n) ∈ m ∧ merge_key k.
Proof.
  induction m as [|[k n] m [IH|(k' & n' & Hin & Hk)]].
  - left. by intros k n ?%elem_of_nil.
  - destruct (is_merge k) eqn:E.
    + right. exists k, n. split; [left|by apply is_merge_iff].
    + left. intros k' n' [[= -> ->]|Hin]%elem_of_cons; [by apply is_merge_false|by apply (IH k' n')].
  - right. exists k', n'. split; [by right|done].
Qed.
Lemma members_map n es : members n es → ∃ m, n = YMap m.
Proof. destruct 1. by eexists. Qed.
Scheme members_mind := Minimality for members Sort Prop
with merged_mind := Minimality for merged Sort Prop
with all_members_mind := Minimality for all_members Sort Prop.
Combined Scheme members_mutind from members_mind, merged_mind, all_members_mind.
Lemma member_list_complete :
  (∀ n es, members n es → member_list n = Some es) ∧
  (∀ m es, merged m es → distinct_keys m → merge_list m = Some es) ∧
  (∀ l es, all_members l es → ∃ ls, osequence (map member_list l) = Some ls ∧ es = concat ls).
Proof.
  apply members_mutind.
  - intros m own rest Hd Ho _ IH. rewrite member_list_map. apply own_iff in Ho. rewrite (proj2 (repeated_iff m) Hd), Ho, IH by done. done.
  - intros m H _. by apply merge_list_none.
  - intros m k n es Hin Hk Hm IH Hd. rewrite (merge_list_some m k n) by done. destruct (members_map _ _ Hm) as [m' ->]. done.
  - intros m k l es Hin Hk _ (ls & E & ->) Hd. rewrite (merge_list_some m k (YSeq l)) by done. by rewrite E.
  - by exists [].
  - intros n l es es' _ E _ (ls & E' & ->). exists (es :: ls). cbn [map osequence concat]. by rewrite E, E'.
Qed.
Lemma all_members_intro l ls : Forall2 members l ls → all_members l (concat ls).
Proof. induction 1; [constructor|]. cbn [concat]. by constructor. Qed.
Lemma member_list_sound n : (∀ es, member_list n = Some es → members n es) ∧
  match n with YSeq l => Forall (λ x, ∀ es, member_list x = Some es → members x es) l | _ => True end.
Proof.
  induction n as [|l IH|m IH] using ynode_ind'; [done| |]; (split; [|try done]).
  - done.
  - rewrite Forall_forall in IH |- *. intros x Hx. by apply IH.
  - intros es. rewrite member_list_map. destruct (repeated m) eqn:Er; [done|]. apply repeated_iff in Er.
    destruct (own_list m) as [own|] eqn:Eo; [|done]. destruct (merge_list m) as [rest|] eqn:Em; [|done]. intros [= <-].
    apply mb_map; [done|by apply own_iff|]. destruct (merge_cases m) as [Hn|(k & n & Hin & Hk)].
    { rewrite (merge_list_none m Hn) in Em. injection Em as <-. by apply mg_none. }
    rewrite (merge_list_some m k n) in Em by done. rewrite Forall_forall in IH. destruct (IH _ Hin) as [_ [IHn IHl]]. cbn [snd] in IHn, IHl.
    destruct n as [t v|l|m']; [done| |].
    + destruct (osequence (map member_list l)) as [ls|] eqn:El; [|done]. injection Em as <-. apply (mg_list m k l); [done|done|].
      apply all_members_intro. apply osequence_all in El. clear -El IHl. induction El as [|x es l ls E _ IH]; [constructor|].
      apply Forall_cons in IHl as [H IHl]. constructor; [by apply H|by apply IH].
    + by apply (mg_one m k (YMap m')), IHn.
Qed.
Lemma member_list_iff n es : member_list n = Some es ↔ members n es.
Proof. split; [apply member_list_sound|apply member_list_complete]. Qed.

(** Decoding goes through the members in that order. *)
Section run.
  Context {S : Type} (set : string → ynode → S → option S).
  Fixpoint run (es : list (string * ynode)) (seen : list string) (st : S) : option (S * list string) :=
    match es with
    | [] => Some (st, seen)
    | (f, n) :: es' =>
        if in_list f seen then run es' seen st
        else match set f n st with Some st' => run es' (f :: seen) st' | None => None end
    end.
  Lemma run_app es es' seen st : run (es ++ es') seen st =
    match run es seen st with Some (st', seen') => run es' seen' st' | None => None end.
  Proof.
    revert seen st. induction es as [|[f n] es IH]; intros seen st; [done|]. cbn [app run]. destruct (in_list f seen); [apply IH|].
    destruct (set f n st); [apply IH|done].
  Qed.
  Lemma own_run m seen st : own_fields set m seen st = match own_list m with Some es => run es seen st | None => None end.
  Proof.
    revert seen st. induction m as [|[k n] m IH]; intros seen st; [done|].
    assert (own_fields set ((k, n) :: m) seen st = if is_merge k then own_fields set m seen st else
      match k with
      | YLeaf _ LNull => own_fields set m seen st
      | YLeaf t _ => if in_list t seen then own_fields set m seen st
                     else match set t n st with Some st' => own_fields set m (t :: seen) st' | None => None end
      | _ => None
      end) as -> by done. cbn [own_list]. destruct (is_merge k); [apply IH|]. destruct k as [t v| |]; [|done..].
    destruct v; try apply IH; (destruct (own_list m) as [es|] eqn:Eo; cbn [run];
      [destruct (in_list t seen); [by rewrite IH|]; destruct (set t n st); [by rewrite IH|done]
      |destruct (in_list t seen); [by rewrite IH|]; destruct (set t n st); [by rewrite IH|done]]).
  Qed.
  Definition merge_fields (seen1 : list string) (st1 : S) : list (ynode * ynode) → option (S * list string) :=
    fix merge m :=
      match m with
      | [] => Some (st1, seen1)
      | (k, t) :: m' =>
          if is_merge k then
            match t with
            | YMap _ => decode_fields set t seen1 st1
            | YSeq l =>
                (fix each (l : list ynode) (seen : list string) (st : S) : option (S * list string) :=
                   match l with
                   | [] => Some (st, seen)
                   | x :: l' =>
                       match decode_fields set x seen st with
                       | Some (st', seen') => each l' seen' st'
                       | None => None
                       end
                   end) l seen1 st1
            | _ => None
            end
          else merge m'
      end.
  Lemma decode_fields_map m seen st : decode_fields set (YMap m) seen st =
    if repeated m then None else
    match own_fields set m seen st with Some (st1, seen1) => merge_fields seen1 st1 m | None => None end.
  Proof. cbn [decode_fields]. destruct (repeated m); [done|]. by destruct (own_fields set m seen st) as [[]|]. Qed.
  Lemma decode_run_all n : (∀ seen st, decode_fields set n seen st = match member_list n with Some es => run es seen st | None => None end) ∧
    match n with YSeq l => Forall (λ x, ∀ seen st, decode_fields set x seen st = match member_list x with Some es => run es seen st | None => None end) l | _ => True end.
  Proof.
    induction n as [|l IH|m IH] using ynode_ind'; [done| |]; (split; [|try done]).
    - done.
    - rewrite Forall_forall in IH |- *. intros x Hx. by apply IH.
    - intros seen st. rewrite decode_fields_map, member_list_map. destruct (repeated m); [done|]. rewrite own_run.
      destruct (own_list m) as [own|]; [|done].
      assert (∀ seen1 st1, merge_fields seen1 st1 m = match merge_list m with Some es => run es seen1 st1 | None => None end) as Hm.
      { intros seen1 st1. induction IH as [|[k t] m [_ [Ht Hl]] _ IHm]; [done|]. cbn [merge_list].
        assert (merge_fields seen1 st1 ((k, t) :: m) = if is_merge k then match t with
          | YMap _ => decode_fields set t seen1 st1
          | YSeq l => (fix each (l : list ynode) (seen : list string) (st : S) : option (S * list string) :=
                   match l with
                   | [] => Some (st, seen)
                   | x :: l' => match decode_fields set x seen st with Some (st', seen') => each l' seen' st' | None => None end
                   end) l seen1 st1
          | _ => None end else merge_fields seen1 st1 m) as -> by done.
        destruct (is_merge k); [|apply IHm]. cbn [snd] in Ht, Hl. destruct t as [t v|l|m']; [done| |by rewrite Ht].
        clear -Hl. revert seen1 st1. induction Hl as [|x l Hx _ IH]; intros seen1 st1; [done|].
        rewrite Hx. cbn [map osequence]. destruct (member_list x) as [es|]; [|done].
        destruct (osequence (map member_list l)) as [ls|].
        - cbn [concat]. rewrite run_app. destruct (run es seen1 st1) as [[st' seen']|]; [apply IH|done].
        - destruct (run es seen1 st1) as [[st' seen']|]; [apply IH|done]. }
      destruct (run own seen st) as [[st1 seen1]|] eqn:Er.
      + rewrite Hm. destruct (merge_list m) as [es|]; [|done]. by rewrite run_app, Er.
      + destruct (merge_list m) as [es|]; [|done]. by rewrite run_app, Er.
  Qed.
  Lemma decode_run n seen st : decode_fields set n seen st = match member_list n with Some es => run es seen st | None => None end.
  Proof. apply decode_run_all. Qed.
End run.

Fixpoint first (f : string) (es : list (string * ynode)) : option ynode :=
  match es with [] => None | (g, n) :: es' => if String.eqb f g then Some n else first f es' end.
Lemma first_given f es n : first f es = Some n ↔ given es f n.
Proof.
  unfold given. induction es as [|[g m] es IH]; cbn [first].
  - split; [done|]. intros (a & b & E & _). by destruct a.
  - destruct (String.eqb_spec f g) as [<-|Hne].
    + split.
      * intros [= <-]. exists [], es. split; [done|]. apply not_elem_of_nil.
      * intros ([|[g' m'] a] & b & E & Ha); [by injection E as ->|]. injection E as <- _ _. cbn in Ha. destruct Ha. left.
    + rewrite IH. split.
      * intros (a & b & -> & Ha). exists ((g, m) :: a), b. split; [done|]. cbn [map fst]. by apply not_elem_of_cons.
      * intros ([|[g' m'] a] & b & E & Ha); [injection E as -> _ _; done|]. injection E as -> _ E. exists a, b. split; [done|].
        cbn [map] in Ha. by apply not_elem_of_cons in Ha as [_ Ha].
Qed.
Lemma first_absent f es : first f es = None ↔ absent es f.
Proof.
  unfold absent. induction es as [|[g m] es IH]; cbn [first map fst]; [split; [|done]; intros _; apply not_elem_of_nil|].
  rewrite not_elem_of_cons, <- IH. destruct (String.eqb_spec f g); [split; [done|tauto]|tauto].
Qed.
(** A field with the decoder [dec] after the members [es]: [old] if not given. *)
Definition field_is {A} (dec : ynode → A → option A) (es : list (string * ynode)) (seen : list string) (f : string) (old new : A) : Prop :=
  if in_list f seen then new = old else match first f es with None => new = old | Some n => dec n old = Some new end.
Lemma field_is_nil {A} (dec : ynode → A → option A) seen f old new : field_is dec [] seen f old new ↔ new = old.
Proof. unfold field_is. cbn [first]. by destruct (in_list f seen). Qed.
Lemma field_is_done {A} (dec : ynode → A → option A) g n es seen f old new : g ∈ seen →
  field_is dec ((g, n) :: es) seen f old new ↔ field_is dec es seen f old new.
Proof.
  intros Hg. unfold field_is. destruct (in_list f seen) eqn:E; [done|]. cbn [first]. destruct (String.eqb_spec f g) as [->|]; [|done].
  apply in_list_false in E. done.
Qed.
Lemma field_is_other {A} (dec : ynode → A → option A) g n es seen f old new : f ≠ g →
  field_is dec ((g, n) :: es) seen f old new ↔ field_is dec es (g :: seen) f old new.
Proof.
  intros Hne. unfold field_is. change (in_list f (g :: seen)) with (String.eqb f g || in_list f seen).
  cbn [first]. apply String.eqb_neq in Hne. by rewrite Hne.
Qed.
Lemma field_is_this {A} (dec : ynode → A → option A) n es seen f old new : f ∉ seen →
  field_is dec ((f, n) :: es) seen f old new ↔ ∃ mid, dec n old = Some mid ∧ field_is dec es (f :: seen) f mid new.
Proof.
  intros Hf. unfold field_is. rewrite (proj2 (in_list_false f seen) Hf). change (in_list f (f :: seen)) with (String.eqb f f || in_list f seen).
  cbn [first]. rewrite String.eqb_refl. cbn [orb]. split; [by exists new|]. by intros (mid & H & ->).
Qed.

(** ** Options *)
Lemma decode_text_iff n t : decode_text n "" = Some t ↔ text_value n t.
Proof.
  split.
  - destruct n as [s []| |]; cbn; intros H; try done; injection H as <-; by constructor.
  - intros H. inversion H as [|s v Hv]; subst; [done|]. by destruct v.
Qed.
Lemma decode_bool_iff n b : decode_bool n false = Some b ↔ bool_value n b.
Proof.
  split.
  - destruct n as [s []| |]; cbn [decode_bool]; intros H; try done; try (injection H as <-; by constructor).
    destruct (in_list s ["y"; "Y"; "yes"; "on"]) eqn:E; [injection H as <-; by apply bv_yes, in_list_iff|].
    destruct (in_list s ["n"; "N"; "no"; "off"]) eqn:E'; [injection H as <-; by apply bv_no, in_list_iff|done].
  - intros H. inversion H as [| |t Ht|t Ht]; subst; [done|done| |]; cbn [decode_bool].
    + by rewrite (proj2 (in_list_iff _ _) Ht).
    + rewrite (proj2 (in_list_iff _ _) Ht). rewrite (proj2 (in_list_false _ _)); [done|]. rewrite !elem_of_cons in *. rewrite elem_of_nil in *.
      intuition (subst; discriminate).
Qed.
Lemma field_says {A} (dec : ynode → A → option A) (value : ynode → A → Prop) (zero : A) es f x :
  (∀ n y, dec n zero = Some y ↔ value n y) → field_is dec es [] f zero x ↔ says value zero es f x.
Proof.
  intros H. unfold field_is, says. change (in_list f []) with false. cbv iota. destruct (first f es) as [n|] eqn:E.
  - apply first_given in E as Hg. rewrite H. split; [intros Hv; left; by exists n|].
    intros [(n' & Hn' & Hv)|[Ha _]]; [|apply first_absent in Ha; congruence]. apply first_given in Hn'. congruence.
  - apply first_absent in E as Ha. split; [intros ->; by right|]. intros [(n' & Hn' & _)|[_ ->]]; [|done]. apply first_given in Hn'. congruence.
Qed.
(** The names of all members are among [fs]; those in [seen] have been looked at. *)
Definition known (fs : list string) (es : list (string * ynode)) (seen : list string) : Prop := ∀ f, f ∈ map fst es → f ∈ seen ∨ f ∈ fs.
Lemma known_nil fs seen : known fs [] seen.
Proof. by intros f ?%elem_of_nil. Qed.
Lemma known_cons fs g n es seen : known fs ((g, n) :: es) seen ↔ (g ∈ seen ∨ g ∈ fs) ∧ known fs es seen.
Proof.
  unfold known. cbn [map fst]. split.
  - intros H. split; [apply H; left|]. intros f Hf. apply H. by right.
  - intros [H1 H2] f [->|Hf]%elem_of_cons; [done|by apply H2].
Qed.
Lemma known_seen fs g es seen : g ∈ fs → known fs es (g :: seen) ↔ known fs es seen.
Proof.
  intros Hg. unfold known. split; intros H f Hf; specialize (H f Hf); rewrite elem_of_cons in *; naive_solver.
Qed.
Definition option_fields : list string := ["name"; "type"; "required"; "optional"; "default"; "description"].
Definition decode_new (n : ynode) (_ : yval) : option yval := decode_any n.
Definition option_is (es : list (string * ynode)) (seen : list string) (o o' : yoption) : Prop :=
  field_is decode_text es seen "name" (yo_name o) (yo_name o') ∧ field_is decode_text es seen "type" (yo_type o) (yo_type o') ∧
  field_is decode_bool es seen "required" (yo_required o) (yo_required o') ∧ field_is decode_bool es seen "optional" (yo_optional o) (yo_optional o') ∧
  field_is decode_new es seen "default" (yo_default o) (yo_default o') ∧ field_is decode_text es seen "description" (yo_desc o) (yo_desc o').
Ltac option_step Hg := unfold option_is; cbn [yo_name yo_type yo_required yo_optional yo_default yo_desc];
  repeat (rewrite field_is_other by done); rewrite field_is_this by exact Hg.
Lemma run_option es seen o o' : (∃ seen', run set_option es seen o = Some (o', seen')) ↔ known option_fields es seen ∧ option_is es seen o o'.
Proof.
  revert seen o. induction es as [|[g n] es IH]; intros seen o.
  - cbn [run]. unfold option_is. rewrite !field_is_nil. split.
    + intros (? & [= -> ->]). split; [apply known_nil|done].
    + intros (_ & E1 & E2 & E3 & E4 & E5 & E6). exists seen. destruct o, o'. cbn in *. by subst.
  - cbn [run]. destruct (in_list g seen) eqn:Eg.
    { apply in_list_iff in Eg. rewrite IH, known_cons. unfold option_is. rewrite !(field_is_done _ g) by done. tauto. }
    apply in_list_false in Eg. rewrite known_cons. destruct o as [name ty req opt def desc]. cbn [set_option].
    destruct (String.eqb_spec g "name") as [->|H1].
    { option_step Eg. destruct (decode_text n name) as [s|]; [|split; [by intros []|intros (_ & (? & ? & _) & _); done]].
      rewrite IH, known_seen by (unfold option_fields; rewrite !elem_of_cons; tauto). unfold option_is. cbn [yo_name yo_type yo_required yo_optional yo_default yo_desc].
      unfold option_fields. rewrite !elem_of_cons. naive_solver. }
    destruct (String.eqb_spec g "type") as [->|H2].
    { option_step Eg. destruct (decode_text n ty) as [s|]; [|split; [by intros []|intros (_ & _ & (? & ? & _) & _); done]].
      rewrite IH, known_seen by (unfold option_fields; rewrite !elem_of_cons; tauto). unfold option_is. cbn [yo_name yo_type yo_required yo_optional yo_default yo_desc].
      unfold option_fields. rewrite !elem_of_cons. naive_solver. }
    destruct (String.eqb_spec g "required") as [->|H3].
    { option_step Eg. destruct (decode_bool n req) as [s|]; [|split; [by intros []|intros (_ & _ & _ & (? & ? & _) & _); done]].
      rewrite IH, known_seen by (unfold option_fields; rewrite !elem_of_cons; tauto). unfold option_is. cbn [yo_name yo_type yo_required yo_optional yo_default yo_desc].
      unfold option_fields. rewrite !elem_of_cons. naive_solver. }
    destruct (String.eqb_spec g "optional") as [->|H4].
    { option_step Eg. destruct (decode_bool n opt) as [s|]; [|split; [by intros []|intros (_ & _ & _ & _ & (? & ? & _) & _); done]].
      rewrite IH, known_seen by (unfold option_fields; rewrite !elem_of_cons; tauto). unfold option_is. cbn [yo_name yo_type yo_required yo_optional yo_default yo_desc].
      unfold option_fields. rewrite !elem_of_cons. naive_solver. }
    destruct (String.eqb_spec g "default") as [->|H5].
    { option_step Eg. change (decode_new n def) with (decode_any n). destruct (decode_any n) as [s|]; [|split; [by intros []|intros (_ & _ & _ & _ & _ & (? & ? & _) & _); done]].
      rewrite IH, known_seen by (unfold option_fields; rewrite !elem_of_cons; tauto). unfold option_is. cbn [yo_name yo_type yo_required yo_optional yo_default yo_desc].
      unfold option_fields. rewrite !elem_of_cons. naive_solver. }
    destruct (String.eqb_spec g "description") as [->|H6].
    { option_step Eg. destruct (decode_text n desc) as [s|]; [|split; [by intros []|intros (_ & _ & _ & _ & _ & _ & (? & ? & _)); done]].
      rewrite IH, known_seen by (unfold option_fields; rewrite !elem_of_cons; tauto). unfold option_is. cbn [yo_name yo_type yo_required yo_optional yo_default yo_desc].
      unfold option_fields. rewrite !elem_of_cons. naive_solver. }
    split; [by intros []|]. intros (([?|H] & _) & _); [done|]. unfold option_fields in H. rewrite !elem_of_cons, elem_of_nil in H. tauto.
Qed.
Lemma known_only fs es : known fs es [] ↔ only_fields fs es.
Proof. unfold known, only_fields. split; intros H f Hf; specialize (H f Hf); [destruct H as [?%elem_of_nil|]; done|by right]. Qed.
Lemma option_fields_iff n o : (∃ d, decode_fields set_option n [] no_option = Some (o, d)) ↔ option_says n o.
Proof.
  rewrite decode_run. destruct (member_list n) as [es|] eqn:Em.
  - rewrite run_option, known_only. apply member_list_iff in Em. unfold option_is, no_option. cbn [yo_name yo_type yo_required yo_optional yo_default yo_desc].
    rewrite !(field_says decode_text text_value) by apply decode_text_iff. rewrite !(field_says decode_bool bool_value) by apply decode_bool_iff.
    rewrite (field_says decode_new shows) by (intros n0 y; symmetry; apply any_iff). split.
    + intros (H & ?). destruct o. cbn in *. apply (os_option n es); tauto.
    + intros H. inversion H as [? es' ? ? ? ? ? ? Hm]; subst. apply member_list_iff in Em, Hm. assert (es' = es) as -> by congruence. done.
  - split; [by intros []|]. intros H. inversion H as [? es' ? ? ? ? ? ? Hm]; subst. apply member_list_iff in Hm. congruence.
Qed.
Lemma option_not_null n o t : option_says n o → n ≠ YLeaf t LNull.
Proof. intros H. inversion H as [? es ? ? ? ? ? ? Hm]; subst. destruct (members_map _ _ Hm) as [m ->]. done. Qed.
Lemma options_iff l os : match osequence (map decode_option l) with Some ls => Some (concat ls) | None => None end = Some os ↔ options_say l os.
Proof.
  revert os. induction l as [|n l IH]; intros os; cbn [map osequence].
  - split; [intros [= <-]; constructor|]. by inversion 1.
  - split.
    + destruct n as [t v|l'|m]; [|done|].
      * destruct v; try done. cbn [decode_option]. destruct (osequence (map decode_option l)) as [ls|]; [|done]. intros [= <-]. cbn [concat app].
        apply op_null, IH. done.
      * cbn [decode_option]. destruct (decode_fields set_option (YMap m) [] no_option) as [[o d]|] eqn:E; [|done].
        destruct (osequence (map decode_option l)) as [ls|]; [|done]. intros [= <-]. cbn [concat app].
        apply op_next; [apply option_fields_iff; by exists d|]. by apply IH.
    + intros H. inversion H as [|t l' os' H'|n' o l' os' Ho H']; subst.
      * apply IH in H'. cbn [decode_option]. by destruct (osequence (map decode_option l)) as [ls|].
      * apply IH in H'. assert (∃ m, n = YMap m) as [m ->]. { inversion Ho as [? es ? ? ? ? ? ? Hm]; subst. by apply members_map in Hm. }
        apply option_fields_iff in Ho as [d Ho]. cbn [decode_option]. rewrite Ho. destruct (osequence (map decode_option l)) as [ls|]; [|done].
        cbn [concat app]. congruence.
Qed.
Definition decode_options_new (n : ynode) (_ : list yoption) : option (list yoption) := decode_options n.
Lemma configuration_iff n os : decode_options n = Some os ↔ configuration_says n os.
Proof.
  split.
  - destruct n as [t []|l|m]; try done; cbn [decode_options].
    + intros [= <-]. constructor.
    + intros H. apply options_iff in H. by constructor.
  - intros H. inversion H as [|l os' Ho]; subst; [done|]. by apply options_iff.
Qed.

(** ** Processors *)
Definition proc_fields : list string := ["description"; "configuration"].
Definition proc_is (es : list (string * ynode)) (seen : list string) (p p' : yproc) : Prop :=
  field_is decode_text es seen "description" (yp_desc p) (yp_desc p') ∧ field_is decode_options_new es seen "configuration" (yp_conf p) (yp_conf p').
Lemma run_proc es seen p p' : (∃ seen', run set_proc es seen p = Some (p', seen')) ↔ known proc_fields es seen ∧ proc_is es seen p p'.
Proof.
  revert seen p. induction es as [|[g n] es IH]; intros seen p.
  - cbn [run]. unfold proc_is. rewrite !field_is_nil. split.
    + intros (? & [= -> ->]). split; [apply known_nil|done].
    + intros (_ & E1 & E2). exists seen. destruct p, p'. cbn in *. by subst.
  - cbn [run]. destruct (in_list g seen) eqn:Eg.
    { apply in_list_iff in Eg. rewrite IH, known_cons. unfold proc_is. rewrite !(field_is_done _ g) by done. tauto. }
    apply in_list_false in Eg. rewrite known_cons. destruct p as [desc conf]. cbn [set_proc].
    destruct (String.eqb_spec g "description") as [->|H1].
    { unfold proc_is. cbn [yp_desc yp_conf]. rewrite (field_is_other decode_options_new) by done. rewrite field_is_this by exact Eg.
      destruct (decode_text n desc) as [s|]; [|split; [by intros []|intros (_ & (? & ? & _) & _); done]].
      rewrite IH, known_seen by (unfold proc_fields; rewrite !elem_of_cons; tauto). unfold proc_is. cbn [yp_desc yp_conf].
      unfold proc_fields. rewrite !elem_of_cons. naive_solver. }
    destruct (String.eqb_spec g "configuration") as [->|H2].
    { unfold proc_is. cbn [yp_desc yp_conf]. rewrite (field_is_other decode_text) by done. rewrite field_is_this by exact Eg.
      change (decode_options_new n conf) with (decode_options n).
      destruct (decode_options n) as [s|]; [|split; [by intros []|intros (_ & _ & (? & ? & _)); done]].
      rewrite IH, known_seen by (unfold proc_fields; rewrite !elem_of_cons; tauto). unfold proc_is. cbn [yp_desc yp_conf].
      unfold proc_fields. rewrite !elem_of_cons. naive_solver. }
    split; [by intros []|]. intros (([?|H] & _) & _); [done|]. unfold proc_fields in H. rewrite !elem_of_cons, elem_of_nil in H. tauto.
Qed.
Lemma processor_iff n p : decode_proc_def n = Some p ↔ processor_says n p.
Proof.
  split.
  - destruct n as [t []|l|m]; try done; cbn [decode_proc_def].
    + intros [= <-]. constructor.
    + destruct (decode_fields set_proc (YMap m) [] no_proc) as [[p' d]|] eqn:E; [|done]. intros [= ->].
      rewrite decode_run in E. destruct (member_list (YMap m)) as [es|] eqn:Em; [|done]. apply member_list_iff in Em.
      destruct (proj1 (run_proc es [] no_proc p) (ex_intro _ d E)) as (H1 & H2 & H3). apply known_only in H1. destruct p as [desc conf]. cbn [yp_desc yp_conf no_proc] in *.
      apply (field_says decode_text text_value "") in H2; [|apply decode_text_iff]. apply (field_says decode_options_new configuration_says []) in H3; [|apply configuration_iff].
      by apply (ps_processor (YMap m) es).
  - intros H. inversion H as [|? es desc conf Hm Ho H2 H3]; subst; [done|].
    apply (field_says decode_text text_value "") in H2; [|apply decode_text_iff]. apply (field_says decode_options_new configuration_says []) in H3; [|apply configuration_iff].
    apply known_only in Ho. destruct (proj2 (run_proc es [] no_proc (mkYProc desc conf)) (conj Ho (conj H2 H3))) as [d E].
    destruct (members_map _ _ Hm) as [m ->]. apply member_list_iff in Hm. cbn [decode_proc_def]. by rewrite decode_run, Hm, E.
Qed.
(** ** Entries *)
Lemma run_entry es seen m : match run set_entry es seen m with
  | Some (m', _) => (∀ f n, first f es = Some n → f ∉ seen → ∃ p, decode_proc_def n = Some p) ∧
      (msorted m → msorted m') ∧
      ∀ f, mget f m' = if in_list f seen then mget f m else match first f es with Some n => decode_proc_def n | None => mget f m end
  | None => ∃ f n, first f es = Some n ∧ f ∉ seen ∧ decode_proc_def n = None
  end.
Proof.
  revert seen m. induction es as [|[g n] es IH]; intros seen m.
  - cbn [run first]. split; [done|]. split; [done|]. intros f. by destruct (in_list f seen).
  - cbn [run]. destruct (in_list g seen) eqn:Eg.
    { specialize (IH seen m). apply in_list_iff in Eg. destruct (run set_entry es seen m) as [[m' d]|].
      - destruct IH as (H1 & H2 & H3). split; [|split; [done|]].
        + intros f n' E Hf. cbn [first] in E. destruct (String.eqb_spec f g) as [->|]; [done|]. by apply (H1 f).
        + intros f. rewrite H3. destruct (in_list f seen) eqn:Ef; [done|]. cbn [first]. destruct (String.eqb_spec f g) as [->|]; [|done].
          apply in_list_false in Ef. done.
      - destruct IH as (f & n' & E & Hf & Hd). exists f, n'. split; [|done]. cbn [first]. destruct (String.eqb_spec f g) as [->|]; done. }
    apply in_list_false in Eg. unfold set_entry at 1. destruct (decode_proc_def n) as [p|] eqn:Ep.
    + specialize (IH (g :: seen) (mset g p m)). destruct (run set_entry es (g :: seen) (mset g p m)) as [[m' d]|].
      * destruct IH as (H1 & H2 & H3). split; [|split].
        -- intros f n' E Hf. cbn [first] in E. destruct (String.eqb_spec f g) as [->|Hne]; [injection E as <-; by exists p|].
           apply (H1 f); [done|]. by apply not_elem_of_cons.
        -- intros Hm. by apply H2, msorted_mset.
        -- intros f. rewrite H3. change (in_list f (g :: seen)) with (String.eqb f g || in_list f seen). cbn [first].
           destruct (String.eqb_spec f g) as [->|Hne]; cbn [orb].
           ++ rewrite (proj2 (in_list_false g seen) Eg), mget_mset_eq. done.
           ++ rewrite mget_mset_ne by done. done.
      * destruct IH as (f & n' & E & Hf & Hd). apply not_elem_of_cons in Hf as [Hne Hf]. exists f, n'. split; [|done]. cbn [first].
        by destruct (String.eqb_spec f g).
    + exists g, n. cbn [first]. by rewrite String.eqb_refl.
Qed.
Lemma entry_iff n ps : decode_entry n = Some ps ↔ entry_says n ps.
Proof.
  assert (∀ (m : list (string * yproc)) f p, msorted m → (f, p) ∈ m ↔ mget f m = Some p) as Hin.
  { intros m f p Hm. rewrite elem_of_list_In. split; [by apply mget_In|apply mget_Some_In]. }
  assert (∀ m es ps, members (YMap m) es → decode_entry (YMap m) = Some ps → msorted ps ∧ (∀ f n, given es f n → ∃ p, processor_says n p) ∧
    ∀ f p, (f, p) ∈ ps ↔ ∃ n, given es f n ∧ processor_says n p) as Hone.
  { intros m es qs Hm E. cbn [decode_entry] in E. rewrite decode_run in E. apply member_list_iff in Hm. rewrite Hm in E.
    pose proof (run_entry es [] []) as H. destruct (run set_entry es [] []) as [[m' d]|]; [|done]. injection E as ->.
    destruct H as (H1 & H2 & H3). specialize (H2 ltac:(constructor)). split; [done|]. split.
    - intros f n' Hg. apply first_given in Hg. destruct (H1 _ _ Hg ltac:(apply not_elem_of_nil)) as [p Hp]. exists p. by apply processor_iff.
    - intros f p. rewrite (Hin _ _ _ H2), H3. change (in_list f []) with false. cbv iota. destruct (first f es) as [n'|] eqn:Ef.
      + apply first_given in Ef as Hg. split; [intros Hp; exists n'; split; [done|by apply processor_iff]|].
        intros (n'' & Hn'' & Hp). apply first_given in Hn''. assert (n'' = n') as -> by congruence. by apply processor_iff.
      + split; [done|]. intros (n' & Hg & _). apply first_given in Hg. congruence. }
  split.
  - destruct n as [t []|l|m]; try done.
    + intros [= <-]. constructor.
    + intros E. assert (∃ es, member_list (YMap m) = Some es) as [es Hm].
      { cbn [decode_entry] in E. rewrite decode_run in E. destruct (member_list (YMap m)) as [es|]; [by exists es|done]. }
      apply member_list_iff in Hm. destruct (Hone m es ps Hm E) as (H1 & H2 & H3). by apply (es_entry _ es).
  - intros H. inversion H as [|? es ? Hm Hs Hall Hps]; subst; [done|]. destruct (members_map _ _ Hm) as [m ->].
    assert (∃ qs, decode_entry (YMap m) = Some qs) as [qs Hq].
    { cbn [decode_entry]. rewrite decode_run. apply member_list_iff in Hm as Hl. rewrite Hl. pose proof (run_entry es [] []) as Hr.
      destruct (run set_entry es [] []) as [[qs d]|]; [by exists qs|]. destruct Hr as (f & n' & E & _ & Hd). apply first_given in E.
      destruct (Hall _ _ E) as [p Hp]. apply processor_iff in Hp. congruence. }
    destruct (Hone m es qs Hm Hq) as (H1 & H2 & H3). rewrite Hq. f_equal.
    apply gomap_ext; [done|done|]. intros f. destruct (mget f qs) as [p|] eqn:Ep.
    + apply (Hin _ _ _ H1), H3, Hps, (Hin _ _ _ Hs) in Ep. by rewrite Ep.
    + destruct (mget f ps) as [p|] eqn:Eq; [|done]. apply (Hin _ _ _ Hs), Hps, H3, (Hin _ _ _ H1) in Eq. congruence.
Qed.

(** ** The file *)
Lemma common_iff n : decode_common n = Some () ↔ common_says n ().
Proof.
  assert (∀ m, decode_struct (λ _ n _, match decode_any n with Some _ => Some () | None => None end) m () = Some () ↔
    scalar_keys m ∧ ∀ k n, (k, n) ∈ m → (∃ t, k = YLeaf t LNull) ∨ ∃ v, shows n v) as Hl.
  { induction m as [|[k n'] m IH].
    - split; [|done]. intros _. split; [intros k n' ?%elem_of_nil|intros k n' ?%elem_of_nil]; done.
    - assert (decode_struct (λ _ n _, match decode_any n with Some _ => Some () | None => None end) ((k, n') :: m) () =
        match k with
        | YLeaf _ LNull => decode_struct (λ _ n _, match decode_any n with Some _ => Some () | None => None end) m ()
        | YLeaf t _ => match decode_any n' with Some _ => decode_struct (λ _ n _, match decode_any n with Some _ => Some () | None => None end) m () | None => None end
        | _ => None
        end) as ->. { destruct k as [t []| |]; cbn [decode_struct]; try done; by destruct (decode_any n'). }
      assert (scalar_keys ((k, n') :: m) ↔ (∃ t v, k = YLeaf t v) ∧ scalar_keys m) as ->.
      { unfold scalar_keys. split.
        - intros H. split; [apply (H k n'); left|]. intros k' n'' Hin. apply (H k' n''). by right.
        - intros [H1 H2] k' n'' [[= -> ->]|Hin]%elem_of_cons; [done|by apply (H2 k' n'')]. }
      assert ((∀ k0 n0, (k0, n0) ∈ (k, n') :: m → (∃ t, k0 = YLeaf t LNull) ∨ ∃ v, shows n0 v) ↔
        ((∃ t, k = YLeaf t LNull) ∨ ∃ v, shows n' v) ∧ ∀ k0 n0, (k0, n0) ∈ m → (∃ t, k0 = YLeaf t LNull) ∨ ∃ v, shows n0 v) as ->.
      { split.
        - intros H. split; [apply H; left|]. intros k0 n0 Hin. apply H. by right.
        - intros [H1 H2] k0 n0 [[= -> ->]|Hin]%elem_of_cons; [done|by apply H2]. }
      destruct k as [t v| |]; [|split; [done|intros (((? & ? & ?) & _) & _); done]..].
      assert (v = LNull ∨ v ≠ LNull) as [->|Hv] by (destruct v; by (left + right)).
      + rewrite IH. split; [intros [H1 H2]; split_and!; eauto|tauto].
      + transitivity (decode_any n' ≠ None ∧ decode_struct (λ _ n _, match decode_any n with Some _ => Some () | None => None end) m () = Some ()).
        { destruct v; try done; (destruct (decode_any n'); [split; [done|by intros [_ ?]]|split; [done|by intros [? _]]]). }
        rewrite IH. assert (decode_any n' ≠ None ↔ ∃ v, shows n' v) as ->.
        { split; [destruct (decode_any n') as [x|] eqn:E; [|done]; intros _; exists x; by apply any_iff|]. intros [x Hx]. apply any_iff in Hx. congruence. }
        split; [intros (H1 & H2 & H3); split_and!; eauto|]. intros ((_ & H2) & [[t' [= _ ?]]|H1] & H3); done. }
  split.
  - destruct n as [t []|l|m]; try done; cbn [decode_common]; [intros _; constructor|].
    destruct (repeated m) eqn:Er; [done|]. apply repeated_iff in Er. intros H. apply Hl in H as [H1 H2]. by constructor.
  - intros H. inversion H as [|m Hd Hs Hv]; subst; [done|]. cbn [decode_common]. rewrite (proj2 (repeated_iff m) Hd). by apply Hl.
Qed.
Lemma entries_iff n ps : decode_entries n = Some ps ↔ entries_say n ps.
Proof.
  split.
  - destruct n as [t []|l|m]; try done; cbn [decode_entries]; [intros [= <-]; constructor|]. intros H. apply osequence_all in H. constructor.
    induction H; constructor; [by apply entry_iff|done].
  - intros H. inversion H as [|l qs Hall]; subst; [done|]. cbn [decode_entries]. apply osequence_all. clear H. induction Hall; constructor; [by apply entry_iff|done].
Qed.
Definition file_fields : list string := ["common_fields"; "processors"].
Definition decode_entries_new (n : ynode) (_ : list (list (string * yproc))) : option (list (list (string * yproc))) := decode_entries n.
Definition decode_common_new (n : ynode) (_ : ()) : option () := decode_common n.
Lemma run_file es seen ps ps' : (∃ seen', run set_file es seen ps = Some (ps', seen')) ↔
  known file_fields es seen ∧ field_is decode_common_new es seen "common_fields" () () ∧ field_is decode_entries_new es seen "processors" ps ps'.
Proof.
  revert seen ps. induction es as [|[g n] es IH]; intros seen ps.
  - cbn [run]. rewrite !field_is_nil. split.
    + intros (? & [= -> ->]). split; [apply known_nil|done].
    + intros (_ & _ & ->). by exists seen.
  - cbn [run]. destruct (in_list g seen) eqn:Eg.
    { apply in_list_iff in Eg. rewrite IH, known_cons. rewrite !(field_is_done _ g) by done. tauto. }
    apply in_list_false in Eg. rewrite known_cons. unfold set_file at 1.
    destruct (String.eqb_spec g "common_fields") as [->|H1].
    { rewrite (field_is_other decode_entries_new) by done. rewrite field_is_this by exact Eg. change (decode_common_new n ()) with (decode_common n).
      destruct (decode_common n) as [[]|]; [|split; [by intros []|intros (_ & (? & ? & _) & _); done]].
      rewrite IH, known_seen by (unfold file_fields; rewrite !elem_of_cons; tauto). unfold file_fields. rewrite !elem_of_cons.
      split; [intros (? & ? & ?); split; [tauto|]; split; [by exists ()|done]|]. intros ((_ & ?) & ([] & _ & ?) & ?). done. }
    destruct (String.eqb_spec g "processors") as [->|H2].
    { rewrite (field_is_other decode_common_new) by done. rewrite field_is_this by exact Eg. change (decode_entries_new n ps) with (decode_entries n).
      destruct (decode_entries n) as [s|]; [|split; [by intros []|intros (_ & _ & (? & ? & _)); done]].
      rewrite IH, known_seen by (unfold file_fields; rewrite !elem_of_cons; tauto). unfold file_fields. rewrite !elem_of_cons. naive_solver. }
    split; [by intros []|]. intros (([?|H] & _) & _); [done|]. unfold file_fields in H. rewrite !elem_of_cons, elem_of_nil in H. tauto.
Qed.
Lemma file_iff f ps : ReadProcessorsYAMLFile f = Some ps ↔ ∃ n, f = FirstDocument n ∧ file_says n ps.
Proof.
  split.
  - destruct f as [| | |n]; try done. intros E. exists n. split; [done|]. destruct n as [t []|l|m]; try done; cbn [ReadProcessorsYAMLFile] in E.
    + injection E as <-. constructor.
    + destruct (decode_fields set_file (YMap m) [] []) as [[qs d]|] eqn:Ed; [|done]. injection E as <-.
      rewrite decode_run in Ed. destruct (member_list (YMap m)) as [es|] eqn:Em; [|done]. apply member_list_iff in Em.
      destruct (proj1 (run_file es [] [] qs) (ex_intro _ d Ed)) as (H1 & H2 & H3). apply known_only in H1.
      apply (field_says decode_common_new common_says ()) in H2; [|intros n' []; apply common_iff].
      apply (field_says decode_entries_new entries_say []) in H3; [|apply entries_iff]. by apply (fs_file (YMap m) es).
  - intros (n & -> & H). inversion H as [|? es qs Hm Ho H2 H3]; subst; [done|].
    apply (field_says decode_common_new common_says ()) in H2; [|intros n' []; apply common_iff].
    apply (field_says decode_entries_new entries_say []) in H3; [|apply entries_iff].
    apply known_only in Ho. destruct (proj2 (run_file es [] [] qs) (conj Ho (conj H2 H3))) as [d E].
    destruct (members_map _ _ Hm) as [m ->]. apply member_list_iff in Hm. cbn [ReadProcessorsYAMLFile]. by rewrite decode_run, Hm, E.
Qed.

(** The members of a mapping may stand in any order. *)
Lemma own_permute m m' es : own_members m es → m ≡ₚ m' → ∃ es', own_members m' es' ∧ es ≡ₚ es'.
Proof.
  intros H Hp. revert es H. induction Hp as [|[k n] m m' _ IH|[k1 n1] [k2 n2] m|m1 m2 m3 _ IH1 _ IH2]; intros es H.
  - inversion H; subst. exists []. split; [constructor|done].
  - inversion H as [|? ? ? ? Hk H'|? ? ? ? H'|? f ? ? es' Hk Hn H']; subst; destruct (IH _ H') as (es1 & H1 & H2).
    + exists es1. split; [by apply om_merge|done].
    + exists es1. split; [by apply om_null|done].
    + exists ((f, n) :: es1). split; [by apply om_own|by rewrite H2].
  - inversion H as [|? ? ? ? Hk H'|? ? ? ? H'|? f ? ? es' Hk Hn H']; subst; inversion H' as [|? ? ? ? Hk2 H''|? ? ? ? H''|? f2 ? ? es'' Hk2 Hn2 H'']; subst;
      eexists; (split; [repeat first [apply om_null; try exact H''|apply om_own; [eassumption|eassumption|]|apply om_merge; [eassumption|]]; try exact H''|try done]).
    all: try (by apply perm_swap).
  - destruct (IH1 _ H) as (es1 & H1 & P1). destruct (IH2 _ H1) as (es2 & H2 & P2). exists es2. split; [done|by rewrite P1].
Qed.

(** An option that merges another may give fields anew. *)
Lemma own_in m es k f n : own_members m es → (k, n) ∈ m → names k f → ¬ merge_key k → (f, n) ∈ es.
Proof.
  induction 1 as [|k0 n0 m es Hk _ IH|t n0 m es _ IH|k0 f0 n0 m es Hk Hn _ IH]; intros Hin Hf Hm.
  - by apply elem_of_nil in Hin.
  - apply elem_of_cons in Hin as [[= -> ->]|Hin]; [done|by apply IH].
  - apply elem_of_cons in Hin as [[= -> ->]|Hin]; [destruct Hf as (v & Hv & [= _ <-]); done|by apply IH].
  - apply elem_of_cons in Hin as [[= -> ->]|Hin]; [|right; by apply IH]. rewrite (names_unique _ _ _ Hf Hn). left.
Qed.
Lemma own_out m es f n : own_members m es → (f, n) ∈ es → ∃ k, (k, n) ∈ m ∧ names k f ∧ ¬ merge_key k.
Proof.
  induction 1 as [|k0 n0 m es Hk _ IH|t n0 m es _ IH|k0 f0 n0 m es Hk Hn _ IH]; intros Hin.
  - by apply elem_of_nil in Hin.
  - destruct (IH Hin) as (k & H1 & H2). exists k. split; [by right|done].
  - destruct (IH Hin) as (k & H1 & H2). exists k. split; [by right|done].
  - apply elem_of_cons in Hin as [[= -> ->]|Hin]; [exists k0; split; [left|done]|]. destruct (IH Hin) as (k & H1 & H2). exists k. split; [by right|done].
Qed.
Lemma own_NoDup m es : distinct_keys m → own_members m es → NoDup (map fst es).
Proof.
  intros Hd H. induction H as [|k0 n0 m es Hk _ IH|t n0 m es _ IH|k0 f0 n0 m es Hk Hn Ho IH]; [apply NoDup_nil_2|apply distinct_cons in Hd as [_ Hd]; by apply IH..|].
  apply distinct_cons in Hd as [Hnew Hd]. cbn [map fst]. apply NoDup_cons. split; [|by apply IH].
  intros Hin. apply elem_of_list_fmap in Hin as ([f n] & E & Hin). cbn [fst] in E. subst f.
  destruct (own_out _ _ _ _ Ho Hin) as (k & Hin' & Hn' & _). apply (Hnew _ _ Hin'). by apply (names_alike _ _ f0).
Qed.
Lemma given_in es f n : NoDup (map fst es) → (f, n) ∈ es → given es f n.
Proof.
  intros Hn Hin. apply elem_of_list_split in Hin as (a & b & ->). exists a, b. split; [done|].
  rewrite map_app in Hn. apply NoDup_app in Hn as (_ & Hn & _). intros Ha. apply (Hn _ Ha). cbn [map fst]. left.
Qed.
Lemma given_app es es' f n : given (es ++ es') f n ↔ given es f n ∨ absent es f ∧ given es' f n.
Proof.
  rewrite <- !first_given, <- first_absent. induction es as [|[g m] es IH]; cbn [app first]; [naive_solver|].
  destruct (String.eqb f g); [naive_solver|done].
Qed.
Lemma merged_permute m m' es : merged m es → m ≡ₚ m' → merged m' es.
Proof.
  intros H Hp. inversion H as [? Hn|? k n ? Hin Hk Hm|? k l ? Hin Hk Hm]; subst.
  - apply mg_none. intros k n Hin. apply (Hn k n). by rewrite Hp.
  - apply (mg_one _ k n); [by rewrite <- Hp|done|done].
  - apply (mg_list _ k l); [by rewrite <- Hp|done|done].
Qed.
Lemma distinct_permute m m' : distinct_keys m → m ≡ₚ m' → distinct_keys m'.
Proof.
  intros Hd Hp. induction Hp as [|[k n] m m' Hp IH|[k1 n1] [k2 n2] m|m1 m2 m3 _ IH1 _ IH2]; [done| | |by auto].
  - apply distinct_cons in Hd as [H1 H2]. apply distinct_cons. split; [|by apply IH]. intros k' n' Hin. apply (H1 k' n'). by rewrite Hp.
  - apply distinct_cons in Hd as [H1 H2]. apply distinct_cons in H2 as [H2 H3].
    assert (∀ k k', alike k k' → alike k' k) as Hsym by (intros ? ? Ha; apply alike_iff in Ha; apply alike_iff; naive_solver).
    apply distinct_cons. split; [|apply distinct_cons; split; [|done]].
    + intros k' n' [[= -> ->]|Hin]%elem_of_cons; [|by apply (H2 k' n')]. intros Ha%Hsym. by apply (H1 k1 n1); [left|].
    + intros k' n' Hin. apply (H1 k' n'). by right.
Qed.
Lemma members_permute m m' es : members (YMap m) es → m ≡ₚ m' → ∃ es', members (YMap m') es' ∧
  (∀ f n, given es f n ↔ given es' f n) ∧ ∀ f, f ∈ map fst es ↔ f ∈ map fst es'.
Proof.
  intros H Hp. inversion H as [? own rest Hd Ho Hg]; subst. destruct (own_permute _ _ _ Ho Hp) as (own' & Ho' & Hpo).
  pose proof (distinct_permute _ _ Hd Hp) as Hd'. exists (own' ++ rest). split; [apply mb_map; [done|done|by eapply merged_permute]|].
  assert (∀ f, f ∈ map fst own ↔ f ∈ map fst own') as Hk. { intros f. by rewrite Hpo. }
  assert (∀ f n, given own f n ↔ given own' f n) as Hown.
  { intros f n. split; intros (a & b & E & _).
    - apply given_in; [exact (own_NoDup _ _ Hd' Ho')|]. rewrite <- Hpo, E. apply elem_of_app. right. left.
    - apply given_in; [exact (own_NoDup _ _ Hd Ho)|]. rewrite Hpo, E. apply elem_of_app. right. left. }
  split.
  - intros f n. rewrite !given_app, Hown. unfold absent. by rewrite Hk.
  - intros f. rewrite !map_app, !elem_of_app, Hk. done.
Qed.
Lemma says_alike {A} (value : ynode → A → Prop) zero es es' f x : (∀ f n, given es f n ↔ given es' f n) → (∀ f, f ∈ map fst es ↔ f ∈ map fst es') →
  says value zero es f x → says value zero es' f x.
Proof. intros Hg Hk. unfold says, absent. rewrite Hk. intros [(n & H1 & H2)|H]; [left; exists n; by rewrite <- Hg|by right]. Qed.
Lemma only_alike fs es es' : (∀ f, f ∈ map fst es ↔ f ∈ map fst es') → only_fields fs es → only_fields fs es'.
Proof. intros Hk H f Hf. apply H. by rewrite Hk. Qed.
