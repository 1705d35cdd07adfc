(** * Cleaning a decoded YAML value: internal/proctemplate/schema.go, cleanValue. *)
From Verif Require Export MapIface.

(** ** The model *)
(** A key of a map[interface{}]interface{}: a string, or something else. *)
Inductive ikey : Type := KStr (s : string) | KOther (n : nat).
(** A Go value as an interface{}.  [IAtom]: nil, and whatever is none of the three types of
    the switch (a []string, say).  The boolean of a slice or map: whether it is nil (then it
    is empty).  The entries of a map are in the order in which the loop visits them.  Values
    that contain themselves are excluded. *)
Inductive ival : Type :=
| IAtom (n : nat)
| ISlice (isnil : bool) (l : list ival)
| IMapAny (isnil : bool) (kvs : list (ikey * ival))
| IMapStr (isnil : bool) (kvs : list (string * ival)).
(** schema.go:46-52 cleanSlice, 54-61 cleanMapInterface, 63-69 cleanMapString, 71-82
    cleanValue.  [k.(string)] panics of another key.  The map of the result is sorted by
    key, which stands for any order of it. *)
Fixpoint cleanValue (v : ival) : Outcome ival :=
  match v with
  | IAtom n => Ok (IAtom n)
  | ISlice _ l =>
      (fix go l acc := match l with
        | [] => Ok (ISlice false acc)
        | x :: l => obind (cleanValue x) (λ r, go l (acc ++ [r]))
        end) l []
  | IMapAny _ kvs =>
      (fix go l acc := match l with
        | [] => Ok (IMapStr false acc)
        | (KOther _, _) :: _ => Panic
        | (KStr s, x) :: l => obind (cleanValue x) (λ r, go l (mset s r acc))
        end) kvs []
  | IMapStr _ kvs =>
      (fix go l acc := match l with
        | [] => Ok (IMapStr false acc)
        | (s, x) :: l => obind (cleanValue x) (λ r, go l (mset s r acc))
        end) kvs []
  end.

(** ** Specification *)
(** The value with string keys in all maps, none of them and of the slices nil. *)
Inductive cleaned : ival → ival → Prop :=
| cl_atom n : cleaned (IAtom n) (IAtom n)
| cl_slice b l rs : Forall2 cleaned l rs → cleaned (ISlice b l) (ISlice false rs)
| cl_any b kvs es m : Forall2 (λ kv e, kv.1 = KStr e.1 ∧ cleaned kv.2 e.2) kvs es → msorted m → m ≡ₚ es → cleaned (IMapAny b kvs) (IMapStr false m)
| cl_str b kvs es m : Forall2 (λ kv e, kv.1 = e.1 ∧ cleaned kv.2 e.2) kvs es → msorted m → m ≡ₚ es → cleaned (IMapStr b kvs) (IMapStr false m).
(** The value has a key that is not a string in a map reached through slices and maps. *)
Inductive blocked : ival → Prop :=
| bl_key b kvs n x : (KOther n, x) ∈ kvs → blocked (IMapAny b kvs)
| bl_slice b l x : x ∈ l → blocked x → blocked (ISlice b l)
| bl_any b kvs k x : (k, x) ∈ kvs → blocked x → blocked (IMapAny b kvs)
| bl_str b kvs k x : (k, x) ∈ kvs → blocked x → blocked (IMapStr b kvs).
(** No map has two entries of one string. *)
Inductive distinct : ival → Prop :=
| di_atom n : distinct (IAtom n)
| di_slice b l : Forall distinct l → distinct (ISlice b l)
| di_any b kvs : NoDup (map fst kvs) → Forall (λ kv, distinct kv.2) kvs → distinct (IMapAny b kvs)
| di_str b kvs : NoDup (map fst kvs) → Forall (λ kv, distinct kv.2) kvs → distinct (IMapStr b kvs).
(** Only maps with string keys. *)
Inductive named : ival → Prop :=
| na_atom n : named (IAtom n)
| na_slice l : Forall named l → named (ISlice false l)
| na_str kvs : msorted kvs → Forall (λ kv, named kv.2) kvs → named (IMapStr false kvs).
(** The same value, its maps visited in another order. *)
Inductive revisited : ival → ival → Prop :=
| rv_atom n : revisited (IAtom n) (IAtom n)
| rv_slice b l l' : Forall2 revisited l l' → revisited (ISlice b l) (ISlice b l')
| rv_any b kvs ps kvs' : kvs ≡ₚ ps → Forall2 (λ kv kv', kv.1 = kv'.1 ∧ revisited kv.2 kv'.2) ps kvs' → revisited (IMapAny b kvs) (IMapAny b kvs')
| rv_str b kvs ps kvs' : kvs ≡ₚ ps → Forall2 (λ kv kv', kv.1 = kv'.1 ∧ revisited kv.2 kv'.2) ps kvs' → revisited (IMapStr b kvs) (IMapStr b kvs').

(** ** Proofs *)
Lemma ival_ind' (P : ival → Prop) : (∀ n, P (IAtom n)) → (∀ b l, Forall P l → P (ISlice b l)) →
  (∀ b kvs, Forall (λ kv, P kv.2) kvs → P (IMapAny b kvs)) → (∀ b kvs, Forall (λ kv, P kv.2) kvs → P (IMapStr b kvs)) → ∀ v, P v.
Proof.
  intros Ha Hs Hm Ht. fix IH 1. intros [n|b l|b kvs|b kvs]; [apply Ha|apply Hs|apply Hm|apply Ht].
  - induction l as [|x l IHl]; [apply Forall_nil_2|apply Forall_cons_2; [apply IH|exact IHl]].
  - induction kvs as [|x l IHl]; [apply Forall_nil_2|apply Forall_cons_2; [apply IH|exact IHl]].
  - induction kvs as [|x l IHl]; [apply Forall_nil_2|apply Forall_cons_2; [apply IH|exact IHl]].
Qed.
(** The loops, in closed form. *)
Fixpoint clean_list (l : list ival) : Outcome (list ival) :=
  match l with [] => Ok [] | x :: l => obind (cleanValue x) (λ r, obind (clean_list l) (λ rs, Ok (r :: rs))) end.
Fixpoint clean_entries (l : list (string * ival)) : Outcome (list (string * ival)) :=
  match l with [] => Ok [] | (s, x) :: l => obind (cleanValue x) (λ r, obind (clean_entries l) (λ rs, Ok ((s, r) :: rs))) end.
Fixpoint clean_any (l : list (ikey * ival)) : Outcome (list (string * ival)) :=
  match l with
  | [] => Ok []
  | (KOther _, _) :: _ => Panic
  | (KStr s, x) :: l => obind (cleanValue x) (λ r, obind (clean_any l) (λ rs, Ok ((s, r) :: rs)))
  end.
Lemma clean_slice b l : cleanValue (ISlice b l) = obind (clean_list l) (λ rs, Ok (ISlice false rs)).
Proof.
  cbn [cleanValue]. match goal with |- ?f l [] = _ => assert (∀ acc, f l acc = obind (clean_list l) (λ rs, Ok (ISlice false (acc ++ rs)))) as H; [|by rewrite H] end.
  induction l as [|x l IH]; intros acc; cbn; [by rewrite app_nil_r|].
  destruct (cleanValue x) as [r|]; [|done]. cbn. rewrite IH. destruct (clean_list l); [|done]. cbn. by rewrite <- app_assoc.
Qed.
Lemma clean_str b l : cleanValue (IMapStr b l) = obind (clean_entries l) (λ rs, Ok (IMapStr false (mof_list rs))).
Proof.
  cbn [cleanValue]. unfold mof_list. match goal with |- ?f l [] = _ => assert (∀ acc, f l acc = obind (clean_entries l) (λ rs, Ok (IMapStr false (fold_left (λ m kv, mset kv.1 kv.2 m) rs acc)))) as H; [|by rewrite H] end.
  induction l as [|[s x] l IH]; intros acc; cbn; [done|].
  destruct (cleanValue x) as [r|]; [|done]. cbn. rewrite IH. by destruct (clean_entries l).
Qed.
Lemma clean_map b l : cleanValue (IMapAny b l) = obind (clean_any l) (λ rs, Ok (IMapStr false (mof_list rs))).
Proof.
  cbn [cleanValue]. unfold mof_list. match goal with |- ?f l [] = _ => assert (∀ acc, f l acc = obind (clean_any l) (λ rs, Ok (IMapStr false (fold_left (λ m kv, mset kv.1 kv.2 m) rs acc)))) as H; [|by rewrite H] end.
  induction l as [|[[s|n] x] l IH]; intros acc; cbn; [done| |done].
  destruct (cleanValue x) as [r|]; [|done]. cbn. rewrite IH. by destruct (clean_any l).
Qed.
(** Each loop succeeds exactly when all its steps do. *)
Lemma clean_list_ok l rs : clean_list l = Ok rs ↔ Forall2 (λ x r, cleanValue x = Ok r) l rs.
Proof.
  revert rs. induction l as [|x l IH]; intros rs; cbn.
  - split; [intros [= <-]; apply Forall2_nil_2|by intros ->%Forall2_nil_inv_l].
  - destruct (cleanValue x) as [r|] eqn:E; cbn.
    + split.
      * destruct (clean_list l) as [rs'|]; [|done]. intros [= <-]. apply Forall2_cons_2; [done|by apply IH].
      * intros (r' & rs' & E' & H & ->)%Forall2_cons_inv_l. apply IH in H. rewrite H. cbn. congruence.
    + split; [done|]. intros (r' & rs' & E' & H & ->)%Forall2_cons_inv_l. congruence.
Qed.
Lemma clean_entries_ok l rs : clean_entries l = Ok rs ↔ Forall2 (λ kv e, kv.1 = e.1 ∧ cleanValue kv.2 = Ok e.2) l rs.
Proof.
  revert rs. induction l as [|[k x] l IH]; intros rs; cbn.
  - split; [intros [= <-]; apply Forall2_nil_2|by intros ->%Forall2_nil_inv_l].
  - destruct (cleanValue x) as [r|] eqn:E; cbn.
    + split.
      * destruct (clean_entries l) as [rs'|]; [|done]. intros [= <-]. apply Forall2_cons_2; [done|by apply IH].
      * intros ([k' r'] & rs' & [E1 E'] & H & ->)%Forall2_cons_inv_l. cbn in *. apply IH in H. rewrite H. cbn. congruence.
    + split; [done|]. intros ([k' r'] & rs' & [E1 E'] & H & ->)%Forall2_cons_inv_l. cbn in *. congruence.
Qed.
Lemma clean_any_ok l rs : clean_any l = Ok rs ↔ Forall2 (λ kv e, kv.1 = KStr e.1 ∧ cleanValue kv.2 = Ok e.2) l rs.
Proof.
  revert rs. induction l as [|[k x] l IH]; intros rs; cbn.
  - split; [intros [= <-]; apply Forall2_nil_2|by intros ->%Forall2_nil_inv_l].
  - destruct k as [s|n]; [destruct (cleanValue x) as [r|] eqn:E; cbn|].
    + split.
      * destruct (clean_any l) as [rs'|]; [|done]. intros [= <-]. apply Forall2_cons_2; [done|by apply IH].
      * intros ([k' r'] & rs' & [E1 E'] & H & ->)%Forall2_cons_inv_l. cbn in *. apply IH in H. rewrite H. cbn. congruence.
    + split; [done|]. intros ([k' r'] & rs' & [E1 E'] & H & ->)%Forall2_cons_inv_l. cbn in *. congruence.
    + split; [done|]. intros ([k' r'] & rs' & [E1 E'] & H & ->)%Forall2_cons_inv_l. cbn in *. congruence.
Qed.
Lemma clean_list_panic l : clean_list l = Panic ↔ ∃ x, x ∈ l ∧ cleanValue x = Panic.
Proof.
  induction l as [|x l IH]; cbn; [split; [done|by intros (? & []%elem_of_nil & _)]|]. destruct (cleanValue x) as [r|] eqn:E; cbn.
  - transitivity (clean_list l = Panic); [by destruct (clean_list l)|]. rewrite IH. split.
    + intros (y & Hy & Ey). exists y. split; [by right|done].
    + intros (y & [->|Hy]%elem_of_cons & Ey); [congruence|by exists y].
  - split; [|done]. intros _. exists x. split; [by left|done].
Qed.
Lemma clean_entries_panic l : clean_entries l = Panic ↔ ∃ k x, (k, x) ∈ l ∧ cleanValue x = Panic.
Proof.
  induction l as [|[k x] l IH]; cbn; [split; [done|by intros (? & ? & []%elem_of_nil & _)]|]. destruct (cleanValue x) as [r|] eqn:E; cbn.
  - transitivity (clean_entries l = Panic); [by destruct (clean_entries l)|]. rewrite IH. split.
    + intros (k' & y & Hy & Ey). exists k', y. split; [by right|done].
    + intros (k' & y & [[= -> ->]|Hy]%elem_of_cons & Ey); [congruence|by exists k', y].
  - split; [|done]. intros _. exists k, x. split; [by left|done].
Qed.
Lemma clean_any_panic l : clean_any l = Panic ↔ ∃ k x, (k, x) ∈ l ∧ ((∃ n, k = KOther n) ∨ cleanValue x = Panic).
Proof.
  induction l as [|[k x] l IH]; cbn; [split; [done|by intros (? & ? & []%elem_of_nil & _)]|]. destruct k as [s|n]; [destruct (cleanValue x) as [r|] eqn:E; cbn|].
  - transitivity (clean_any l = Panic); [by destruct (clean_any l)|]. rewrite IH. split.
    + intros (k' & y & Hy & Ey). exists k', y. split; [by right|done].
    + intros (k' & y & [[= -> ->]|Hy]%elem_of_cons & [[n Ek]|Ey]); [done|congruence| |]; exists k', y; (split; [done|]); [left; by exists n|by right].
  - split; [|done]. intros _. exists (KStr s), x. split; [by left|by right].
  - split; [|done]. intros _. exists (KOther n), x. split; [by left|left; by exists n].
Qed.
Lemma Forall2_keys {A} (f : string → A) (R : ival → ival → Prop) (l : list (A * ival)) (es : list (string * ival)) :
  Forall2 (λ kv e, kv.1 = f e.1 ∧ R kv.2 e.2) l es → map fst l = map f (map fst es).
Proof. induction 1 as [|kv e l es [E _] _ IH]; [done|]. cbn [map]. by rewrite E, IH. Qed.
Lemma panic_iff v : cleanValue v = Panic ↔ blocked v.
Proof.
  induction v as [n|b l IH|b kvs IH|b kvs IH] using ival_ind'.
  - split; [done|inversion 1].
  - rewrite clean_slice. transitivity (clean_list l = Panic); [by destruct (clean_list l)|]. rewrite clean_list_panic. rewrite Forall_forall in IH. split.
    + intros (x & Hx & E). eapply bl_slice; [done|by apply IH].
    + inversion 1; subst. eexists. split; [done|by apply IH].
  - rewrite clean_map. transitivity (clean_any kvs = Panic); [by destruct (clean_any kvs)|]. rewrite clean_any_panic. rewrite Forall_forall in IH. split.
    + intros (k & x & Hx & [[n ->]|E]); [by eapply bl_key|]. eapply bl_any; [done|by apply (IH _ Hx)].
    + inversion 1 as [b' kvs' n x Hin| |b' kvs' k x Hin Hb|]; subst; (eexists _, _; split; [done|]); [left; by eexists|right; by apply (IH _ Hin)].
  - rewrite clean_str. transitivity (clean_entries kvs = Panic); [by destruct (clean_entries kvs)|]. rewrite clean_entries_panic. rewrite Forall_forall in IH. split.
    + intros (k & x & Hx & E). eapply bl_str; [done|by apply (IH _ Hx)].
    + inversion 1 as [| | |b' kvs' k x Hin Hb]; subst. eexists _, _. split; [done|]. by apply (IH _ Hin).
Qed.
Lemma NoDup_str (l : list string) : NoDup (map KStr l) ↔ NoDup l.
Proof. split; [apply NoDup_fmap_1|apply NoDup_fmap_2]. by intros ?? [=]. Qed.
Lemma result_iff v r : distinct v → cleanValue v = Ok r ↔ cleaned v r.
Proof.
  revert r. induction v as [n|b l IH|b kvs IH|b kvs IH] using ival_ind'; intros r Hd.
  - cbn. split; [intros [= <-]; constructor|by inversion 1].
  - rewrite clean_slice. inversion Hd as [|? ? Hl| |]; subst. rewrite Forall_forall in IH, Hl. split.
    + destruct (clean_list l) as [rs|] eqn:E; [|done]. intros [= <-]. constructor. apply clean_list_ok in E. clear Hd.
      induction E as [|x r l rs Hx _ IHl]; [apply Forall2_nil_2|]. apply Forall2_cons_2; [apply IH; [by left|apply Hl; by left|done]|].
      apply IHl; intros y Hy; [apply IH|apply Hl]; by right.
    + inversion 1 as [|? ? rs Hc| |]; subst. assert (clean_list l = Ok rs) as ->; [|done]. apply clean_list_ok. clear H Hd.
      induction Hc as [|x r l rs Hx _ IHl]; [apply Forall2_nil_2|]. apply Forall2_cons_2; [apply IH; [by left|apply Hl; by left|done]|].
      apply IHl; intros y Hy; [apply IH|apply Hl]; by right.
  - rewrite clean_map. inversion Hd as [| |? ? Hn Hl|]; subst. rewrite Forall_forall in IH, Hl. split.
    + destruct (clean_any kvs) as [es|] eqn:E; [|done]. intros [= <-]. apply clean_any_ok in E. apply (cl_any _ _ es); [|apply msorted_mof_list|].
      * clear Hn Hd. induction E as [|x r l rs [Ek Hx] _ IHl]; [apply Forall2_nil_2|]. apply Forall2_cons_2; [split; [done|]; apply IH; [by left|apply Hl; by left|done]|].
        apply IHl; intros y Hy; [apply IH|apply Hl]; by right.
      * apply mof_list_Permutation. apply NoDup_str. by rewrite <- (Forall2_keys KStr (λ x r, cleanValue x = Ok r) _ _ E).
    + inversion 1 as [| |? ? es m Hc Hs Hp|]; subst. assert (clean_any kvs = Ok es) as ->; [|cbn; by rewrite (mof_list_perm m es)]. apply clean_any_ok. clear H Hd Hn Hp Hs.
      induction Hc as [|x r l rs [Ek Hx] _ IHl]; [apply Forall2_nil_2|]. apply Forall2_cons_2; [split; [done|]; apply IH; [by left|apply Hl; by left|done]|].
      apply IHl; intros y Hy; [apply IH|apply Hl]; by right.
  - rewrite clean_str. inversion Hd as [| | |? ? Hn Hl]; subst. rewrite Forall_forall in IH, Hl. split.
    + destruct (clean_entries kvs) as [es|] eqn:E; [|done]. intros [= <-]. apply clean_entries_ok in E. apply (cl_str _ _ es); [|apply msorted_mof_list|].
      * clear Hn Hd. induction E as [|x r l rs [Ek Hx] _ IHl]; [apply Forall2_nil_2|]. apply Forall2_cons_2; [split; [done|]; apply IH; [by left|apply Hl; by left|done]|].
        apply IHl; intros y Hy; [apply IH|apply Hl]; by right.
      * apply mof_list_Permutation. pose proof (Forall2_keys id (λ x r, cleanValue x = Ok r) _ _ E) as Ek. rewrite map_id in Ek. by rewrite <- Ek.
    + inversion 1 as [| | |? ? es m Hc Hs Hp]; subst. assert (clean_entries kvs = Ok es) as ->; [|cbn; by rewrite (mof_list_perm m es)]. apply clean_entries_ok. clear H Hd Hn Hp Hs.
      induction Hc as [|x r l rs [Ek Hx] _ IHl]; [apply Forall2_nil_2|]. apply Forall2_cons_2; [split; [done|]; apply IH; [by left|apply Hl; by left|done]|].
      apply IHl; intros y Hy; [apply IH|apply Hl]; by right.
Qed.
Lemma cleaned_named v r : cleaned v r → named r.
Proof.
  revert r. induction v as [n|b l IH|b kvs IH|b kvs IH] using ival_ind'; intros r H; inversion H as [|? ? rs Hc|? ? es m Hc Hs Hp|? ? es m Hc Hs Hp]; subst.
  - constructor.
  - constructor. rewrite Forall_forall in IH. clear H. induction Hc as [|x r l rs Hx _ IHl]; [apply Forall_nil_2|].
    apply Forall_cons_2; [eapply IH; [by left|done]|]. apply IHl. intros y Hy. apply IH. by right.
  - constructor; [done|]. rewrite Hp. rewrite Forall_forall in IH. clear H Hs Hp. induction Hc as [|x r l rs [_ Hx] _ IHl]; [apply Forall_nil_2|].
    apply Forall_cons_2; [eapply IH; [by left|done]|]. apply IHl. intros y Hy. apply IH. by right.
  - constructor; [done|]. rewrite Hp. rewrite Forall_forall in IH. clear H Hs Hp. induction Hc as [|x r l rs [_ Hx] _ IHl]; [apply Forall_nil_2|].
    apply Forall_cons_2; [eapply IH; [by left|done]|]. apply IHl. intros y Hy. apply IH. by right.
Qed.
Lemma named_fixed r : named r → cleanValue r = Ok r.
Proof.
  induction r as [n|b l IH|b kvs IH|b kvs IH] using ival_ind'; intros H; inversion H as [|? Hl|? Hs Hl]; subst; [done| |].
  - rewrite clean_slice. assert (clean_list l = Ok l) as ->; [|done]. apply clean_list_ok. rewrite Forall_forall in IH, Hl. clear H.
    induction l as [|x l IHl]; [apply Forall2_nil_2|]. apply Forall2_cons_2; [apply IH; [by left|apply Hl; by left]|]. apply IHl; intros y Hy; [apply IH|apply Hl]; by right.
  - rewrite clean_str. assert (clean_entries kvs = Ok kvs) as ->; [|cbn; by rewrite mof_list_sorted]. apply clean_entries_ok. rewrite Forall_forall in IH, Hl. clear H Hs.
    induction kvs as [|x l IHl]; [apply Forall2_nil_2|]. apply Forall2_cons_2; [split; [done|]; apply IH; [by left|apply Hl; by left]|]. apply IHl; intros y Hy; [apply IH|apply Hl]; by right.
Qed.
(** The order in which maps are visited. *)
Lemma revisited_distinct v v' : revisited v v' → distinct v → distinct v'.
Proof.
  revert v'. induction v as [n|b l IH|b kvs IH|b kvs IH] using ival_ind'; intros v' H Hd;
    inversion H as [|? ? l' Hc|? ? ps kvs' Hp Hc|? ? ps kvs' Hp Hc]; subst; inversion Hd as [|? ? Hl|? ? Hn Hl|? ? Hn Hl]; subst.
  - constructor.
  - constructor. rewrite Forall_forall in IH, Hl. clear H Hd. induction Hc as [|x y l l' Hx _ IHl]; [apply Forall_nil_2|].
    apply Forall_cons_2; [apply (IH x); [by left|done|apply Hl; by left]|]. apply IHl; intros z Hz; [apply IH|apply Hl]; by right.
  - rewrite Hp in IH, Hl, Hn. clear H Hd Hp. constructor.
    + assert (map fst kvs' = map fst ps) as ->; [|done]. clear -Hc. induction Hc as [|x y l l' [E _] _ IHl]; [done|]. cbn [map]. by rewrite E, IHl.
    + rewrite Forall_forall in IH, Hl. clear Hn. induction Hc as [|x y l l' [_ Hx] _ IHl]; [apply Forall_nil_2|].
      apply Forall_cons_2; [apply (IH x); [by left|done|apply Hl; by left]|]. apply IHl; intros z Hz; [apply IH|apply Hl]; by right.
  - rewrite Hp in IH, Hl, Hn. clear H Hd Hp. constructor.
    + assert (map fst kvs' = map fst ps) as ->; [|done]. clear -Hc. induction Hc as [|x y l l' [E _] _ IHl]; [done|]. cbn [map]. by rewrite E, IHl.
    + rewrite Forall_forall in IH, Hl. clear Hn. induction Hc as [|x y l l' [_ Hx] _ IHl]; [apply Forall_nil_2|].
      apply Forall_cons_2; [apply (IH x); [by left|done|apply Hl; by left]|]. apply IHl; intros z Hz; [apply IH|apply Hl]; by right.
Qed.
Lemma Forall2_in {A B} (R : A → B → Prop) l l' x : Forall2 R l l' → x ∈ l → ∃ y, y ∈ l' ∧ R x y.
Proof.
  induction 1 as [|a b l l' Hab _ IH]; [by intros []%elem_of_nil|]. intros [->|Hx]%elem_of_cons; [exists b; split; [by left|done]|].
  destruct (IH Hx) as (y & Hy & Hr). exists y. split; [by right|done].
Qed.
Lemma revisited_blocked v v' : revisited v v' → blocked v → blocked v'.
Proof.
  intros H Hb. revert v' H. induction Hb as [b kvs n x Hin|b l x Hin Hb IH|b kvs k x Hin Hb IH|b kvs k x Hin Hb IH]; intros v' H;
    inversion H as [|? ? l' Hc|? ? ps kvs' Hp Hc|? ? ps kvs' Hp Hc]; subst.
  - rewrite Hp in Hin. destruct (Forall2_in _ _ _ _ Hc Hin) as ([k y] & Hy & E & _). cbn in E. subst k. by eapply bl_key.
  - destruct (Forall2_in _ _ _ _ Hc Hin) as (y & Hy & E). eapply bl_slice; [done|by apply IH].
  - rewrite Hp in Hin. destruct (Forall2_in _ _ _ _ Hc Hin) as ([k' y] & Hy & _ & E). eapply bl_any; [done|by apply IH].
  - rewrite Hp in Hin. destruct (Forall2_in _ _ _ _ Hc Hin) as ([k' y] & Hy & _ & E). eapply bl_str; [done|by apply IH].
Qed.
Lemma Forall2_perm {A B} (R : A → B → Prop) l ps es : l ≡ₚ ps → Forall2 R l es → ∃ es', es ≡ₚ es' ∧ Forall2 R ps es'.
Proof.
  intros Hp. revert es. induction Hp as [|x l l' _ IH|x y l|l l' l'' _ IH1 _ IH2]; intros es H.
  - by exists es.
  - apply Forall2_cons_inv_l in H as (e & es0 & He & H & ->). destruct (IH _ H) as (es' & Hp & H'). exists (e :: es'). split; [by rewrite Hp|by apply Forall2_cons_2].
  - apply Forall2_cons_inv_l in H as (e & es0 & He & H & ->). apply Forall2_cons_inv_l in H as (e' & es1 & He' & H & ->).
    exists (e' :: e :: es1). split; [constructor|]. by repeat apply Forall2_cons_2.
  - destruct (IH1 _ H) as (es1 & Hp1 & H1). destruct (IH2 _ H1) as (es2 & Hp2 & H2). exists es2. split; [by rewrite Hp1|done].
Qed.
Lemma revisited_cleaned v v' r : revisited v v' → cleaned v r → cleaned v' r.
Proof.
  revert v' r. induction v as [n|b l IH|b kvs IH|b kvs IH] using ival_ind'; intros v' r H Hcl;
    inversion H as [|? ? l' Hc|? ? ps kvs' Hp Hc|? ? ps kvs' Hp Hc]; subst; inversion Hcl as [|? ? rs Hr|? ? es m Hr Hs Hm|? ? es m Hr Hs Hm]; subst.
  - constructor.
  - constructor. clear H Hcl. rewrite Forall_forall in IH. revert l' Hc. induction Hr as [|x r l rs Hx _ IHl]; intros l' Hc.
    + apply Forall2_nil_inv_l in Hc as ->. apply Forall2_nil_2.
    + apply Forall2_cons_inv_l in Hc as (y & l1 & Hy & Hc & ->). apply Forall2_cons_2; [apply (IH x); [by left|done..]|]. apply IHl; [|done]. intros z Hz. apply IH. by right.
  - destruct (Forall2_perm _ _ _ _ Hp Hr) as (es' & Hes & Hr'). apply (cl_any _ _ es'); [|done|by rewrite Hm].
    rewrite Hp in IH. rewrite Forall_forall in IH. clear -IH Hc Hr'. revert kvs' Hc. induction Hr' as [|x r l rs [Ek Hx] _ IHl]; intros l' Hc.
    + apply Forall2_nil_inv_l in Hc as ->. apply Forall2_nil_2.
    + apply Forall2_cons_inv_l in Hc as (y & l1 & [Ey Hy] & Hc & ->). apply Forall2_cons_2; [split; [congruence|]; apply (IH x); [by left|done..]|]. apply IHl; [|done]. intros z Hz. apply IH. by right.
  - destruct (Forall2_perm _ _ _ _ Hp Hr) as (es' & Hes & Hr'). apply (cl_str _ _ es'); [|done|by rewrite Hm].
    rewrite Hp in IH. rewrite Forall_forall in IH. clear -IH Hc Hr'. revert kvs' Hc. induction Hr' as [|x r l rs [Ek Hx] _ IHl]; intros l' Hc.
    + apply Forall2_nil_inv_l in Hc as ->. apply Forall2_nil_2.
    + apply Forall2_cons_inv_l in Hc as (y & l1 & [Ey Hy] & Hc & ->). apply Forall2_cons_2; [split; [congruence|]; apply (IH x); [by left|done..]|]. apply IHl; [|done]. intros z Hz. apply IH. by right.
Qed.
