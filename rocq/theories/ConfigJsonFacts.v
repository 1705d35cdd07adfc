(** * Pipeline definitions as JSON: proofs. *)
From Verif Require Export ConfigJson.
From Coq Require Import Lia.
Local Open Scope Z_scope.

(** ** Equations *)
Lemma optJSON_eq fmt id cond onf cfg : optJSON fmt (OptCfg id cond onf cfg) =
  match oentries (opt_data fmt id cond (match onf with [] => None | _ => Some (procsJSON fmt onf) end) cfg) with
  | Some js => Some (JObj js)
  | None => None
  end.
Proof. reflexivity. Qed.
Definition onf_go : list (string * json) → option (list slval) :=
  fix go (m : list (string * json)) : option (list slval) :=
    match m with
    | [] => Some []
    | (k, j) :: m' =>
        if String.eqb (lower k) "on_failure" then
          match dec_procs j, go m' with
          | Some v, Some vs => Some (v :: vs)
          | _, _ => None
          end
        else go m'
    end.
Lemma opt_of_json_go m : opt_of_json (JObj m) =
  match dec_string (occ "id" m) "", dec_string (occ "if" m) "", onf_go m, fields_of_json m with
  | Some id, Some cond, Some vs, Some raw =>
      Some (OptCfg id cond (slice_of vs) (mdel "on_failure" (mdel "if" (mdel "id" (mof_list raw)))))
  | _, _, _, _ => None
  end.
Proof. reflexivity. Qed.
Lemma occ_cons n k j m : occ n ((k, j) :: m) = if String.eqb (lower k) n then j :: occ n m else occ n m.
Proof. unfold occ. rewrite filter_cons. simpl. destruct (String.eqb_spec (lower k) n); [by rewrite decide_True|by rewrite decide_False]. Qed.
Lemma onf_go_occ m : onf_go m = osequence (map dec_procs (occ "on_failure" m)).
Proof.
  induction m as [|[k j] m IH]; [done|]. rewrite occ_cons. cbn [onf_go].
  destruct (String.eqb (lower k) "on_failure"); [|done]. cbn [map osequence]. by rewrite IH.
Qed.
Lemma opt_of_json_obj m : opt_of_json (JObj m) =
  match dec_string (occ "id" m) "", dec_string (occ "if" m) "", dec_onf (occ "on_failure" m), fields_of_json m with
  | Some id, Some cond, Some onf, Some raw =>
      Some (OptCfg id cond onf (mdel "on_failure" (mdel "if" (mdel "id" (mof_list raw)))))
  | _, _, _, _ => None
  end.
Proof. rewrite opt_of_json_go, onf_go_occ. unfold dec_onf. by destruct (osequence _). Qed.
Lemma slice_one (l : list pcfg) : slice_of [Some (map Some l)] = map mof_list l.
Proof.
  destruct l as [|p l]; [done|]. unfold slice_of. cbn [fold_left slice_write map fst].
  assert (∀ l : list pcfg, over (map Some l) [] = map mof_list l) as H.
  { clear. induction l as [|p l IH]; [done|]. cbn [map over hd tl]. by rewrite IH. }
  change (Some p :: map Some l) with (map Some (p :: l)). rewrite H. apply firstn_all2. cbn [map List.length]. rewrite !map_length. lia.
Qed.
Lemma dec_onf_one j l : dec_procs j = Some (Some (map Some l)) → dec_onf [j] = Some (map mof_list l).
Proof. intros H. unfold dec_onf. cbn [map osequence]. rewrite H. by rewrite slice_one. Qed.
Lemma opt_fine_eq id cond onf cfg : opt_fine (OptCfg id cond onf cfg) ↔
  msorted cfg ∧ Forall (λ kv, ¬ reserved_like kv.1 ∧ jsonable kv.2) cfg ∧
  Forall (λ p : pcfg, msorted p ∧ Forall (optP opt_fine) p) onf.
Proof.
  cbn [opt_fine]. apply and_iff_compat_l, and_iff_compat_l.
  induction onf as [|p l IH]; [by split|]. rewrite Forall_cons, <- IH. apply and_iff_compat_r, and_iff_compat_l.
  clear. induction p as [|[k [o|]] p IHp]; [by split| |]; rewrite Forall_cons, <- IHp; cbn [optP]; tauto.
Qed.
Lemma opt_stable_eq id cond onf cfg : opt_stable (OptCfg id cond onf cfg) ↔
  valid_utf8 id ∧ valid_utf8 cond ∧ Forall (λ kv, tsorted kv.2 ∧ valid_utf8 kv.1 ∧ json_stable kv.2) cfg ∧
  Forall (Forall (λ kv : string * option ocfg, valid_utf8 kv.1 ∧ optP opt_stable kv)) onf.
Proof.
  cbn [opt_stable]. do 3 apply and_iff_compat_l.
  induction onf as [|p l IH]; [by split|]. rewrite Forall_cons, <- IH. apply and_iff_compat_r.
  clear. induction p as [|[k [o|]] p IHp]; [by split| |]; rewrite Forall_cons, <- IHp; cbn [optP fst]; tauto.
Qed.

(** ** Case and UTF-8 *)
Lemma lower1_ascii c : bz (lower1 c) < 0x80 ↔ bz c < 0x80.
Proof.
  unfold lower1. destruct (inr 65 90 c) eqn:E; [|done]. apply inr_spec in E. rewrite bz_zb by lia. lia.
Qed.
Definition is_ascii (s : string) : Prop := Forall (λ c, bz c < 0x80) (list_ascii_of_string s).
(** ASCII and the long s. *)
Inductive plain : list ascii → Prop :=
| plain_nil : plain []
| plain_ascii c l : bz c < 0x80 → plain l → plain (c :: l)
| plain_s l : plain l → plain (zb 0xC5 :: zb 0xBF :: l).
Lemma lower_bytes_cons a l : bz a ≠ 0xC5 → lower_bytes (a :: l) = lower1 a :: lower_bytes l.
Proof. intros H. cbn [lower_bytes]. destruct l as [|b l]; [done|]. by destruct (Z.eqb_spec (bz a) 0xC5). Qed.
Lemma lower_plain l : Forall (λ c, bz c < 0x80) (lower_bytes l) ↔ plain l.
Proof.
  split.
  - remember (length l) as n eqn:Hn. revert l Hn. induction (lt_wf n) as [n _ IH]. intros [|a l] -> H; [constructor|].
    destruct (decide (bz a = 0xC5)) as [Ea|Ea].
    + destruct l as [|b l]; cbn [lower_bytes] in H.
      { apply Forall_cons in H as [H _]. pose proof (proj1 (lower1_ascii a) H); lia. }
      destruct (Z.eqb_spec (bz a) 0xC5); [|done]. destruct (Z.eqb_spec (bz b) 0xBF) as [Eb|Eb]; cbn [andb] in H.
      * rewrite <- (zb_bz a), <- (zb_bz b), Ea, Eb. apply plain_s. apply (IH (length l)); [cbn [List.length]; lia|done|]. by apply Forall_cons in H as [_ H].
      * apply Forall_cons in H as [H _]. pose proof (proj1 (lower1_ascii a) H); lia.
    + rewrite lower_bytes_cons in H by done. apply Forall_cons in H as [H1 H2]. apply plain_ascii; [by apply lower1_ascii|].
      apply (IH (length l)); [cbn [List.length]; lia|done|done].
  - induction 1 as [|c l Hc Hl IH|l Hl IH]; [apply List.Forall_nil| |].
    + rewrite lower_bytes_cons by lia. constructor; [by apply lower1_ascii|done].
    + change (lower_bytes (zb 0xC5 :: zb 0xBF :: l)) with ("s"%char :: lower_bytes l). by constructor.
Qed.
Lemma plain_valid l : plain l → valid_bytes l.
Proof.
  induction 1 as [|c l Hc Hl (cs & Hcs & ->)|l Hl (cs & Hcs & ->)]; [by exists []| |].
  - exists (bz c :: cs). pose proof (bz_range c). split; [constructor; [unfold scalar; lia|done]|]. cbn [flat_map]. unfold utf8_encode at 2.
    destruct (Z.ltb_spec (bz c) 0x80); [|lia]. by rewrite zb_bz.
  - exists (0x17F :: cs). split; [constructor; [unfold scalar; lia|done]|]. reflexivity.
Qed.
Lemma plain_encode c l : scalar c → plain (utf8_encode c ++ l) → (c < 0x80 ∨ c = 0x17F) ∧ plain l.
Proof.
  intros Hc H. assert (0 ≤ c < 0x110000) as Hr by (unfold scalar in Hc; lia).
  assert (∀ x y : Z, 0 ≤ x < 256 → 0 ≤ y < 256 → zb x = zb y → x = y) as Hzb by (intros x y Hx Hy E; rewrite <- (bz_zb x Hx), E; by apply bz_zb).
  unfold utf8_encode in H. destruct (Z.ltb_spec c 0x80); [|destruct (Z.ltb_spec c 0x800); [|destruct (Z.ltb_spec c 0x10000)]]; cbn [app] in H.
  - split; [by left|]. inversion H as [|? ? _ Hl|? Hl E]; subst; [done|]. apply Hzb in E; lia.
  - inversion H as [|? ? Hx _|? Hl]; subst; [rewrite bz_zb in Hx; lia|].
    repeat match goal with E : zb _ = zb _ |- _ => apply Hzb in E; [|lia|lia] end.
    split; [right; lia|done].
  - inversion H as [|? ? Hx _|? Hl]; subst; [rewrite bz_zb in Hx; lia|]. repeat match goal with E : zb _ = zb _ |- _ => apply Hzb in E; [|lia|lia] end. lia.
  - inversion H as [|? ? Hx _|? Hl]; subst; [rewrite bz_zb in Hx; lia|]. repeat match goal with E : zb _ = zb _ |- _ => apply Hzb in E; [|lia|lia] end. lia.
Qed.
Lemma fix_plain l : plain (fix_bytes l) → fix_bytes l = l.
Proof.
  remember (length l) as n eqn:Hn. revert l Hn. induction (lt_wf n) as [n _ IH]. intros l ->.
  destruct (fix_step l) as [->|(c & r & l' & -> & Hr & Hc & E & Hcase)]; [done|].
  rewrite E. intros [H1 H2]%plain_encode; [|done].
  destruct Hcase as [->|(_ & -> & _)]; [|lia]. f_equal.
  apply (IH (length l')); [rewrite app_length; destruct (utf8_encode c); [done|simpl; lia]|done|done].
Qed.
Lemma fix_utf8_plain s : plain (list_ascii_of_string (fix_utf8 s)) ∨ plain (list_ascii_of_string s) → fix_utf8 s = s.
Proof.
  intros [H|H].
  - unfold fix_utf8 in *. rewrite list_ascii_of_string_of_list_ascii in H. apply fix_plain in H. rewrite H.
    apply string_of_list_ascii_of_string.
  - apply fix_utf8_iff. by apply plain_valid.
Qed.
Lemma ascii_plain s : is_ascii s → plain (list_ascii_of_string s).
Proof. unfold is_ascii. induction 1; [constructor|by apply plain_ascii]. Qed.
Lemma lower_ascii s : is_ascii (lower s) ↔ plain (list_ascii_of_string s).
Proof. unfold is_ascii, lower. rewrite list_ascii_of_string_of_list_ascii. apply lower_plain. Qed.
Lemma lower_fix n k : is_ascii n → lower (fix_utf8 k) = n ↔ lower k = n.
Proof.
  intros Hn. split; intros <-.
  - by rewrite fix_utf8_plain by (left; by apply lower_ascii).
  - by rewrite fix_utf8_plain by (right; by apply lower_ascii).
Qed.
Lemma fix_utf8_ascii s : is_ascii (fix_utf8 s) ∨ is_ascii s → fix_utf8 s = s.
Proof. intros H. apply fix_utf8_plain. destruct H as [H|H]; [left|right]; by apply ascii_plain. Qed.
Lemma fix_is n k : is_ascii n → fix_utf8 k = n ↔ k = n.
Proof.
  intros Hn. split; intros <-.
  - by rewrite fix_utf8_ascii by (by left).
  - by rewrite fix_utf8_ascii by (by right).
Qed.
Lemma name_ascii s : forallb (λ c, bz c <? 0x80) (list_ascii_of_string s) = true → is_ascii s.
Proof.
  intros H. apply Forall_forall. intros c Hc. rewrite forallb_forall in H. apply Z.ltb_lt, H. by apply elem_of_list_In.
Qed.
Notation fixkv := (λ kv : string * json, let '(k, j) := kv in (fix_utf8 k, jfix j)).
Lemma occ_fix n m : is_ascii n → occ n (map fixkv m) = map jfix (occ n m).
Proof.
  intros Hn. induction m as [|[k j] m IH]; [done|]. simpl map. rewrite !occ_cons, IH.
  destruct (String.eqb_spec (lower (fix_utf8 k)) n) as [E|E], (String.eqb_spec (lower k) n) as [E'|E']; try done;
    exfalso; rewrite (lower_fix n k Hn) in E; done.
Qed.

(** ** Maps *)
Definition drop (n : string) {A} (l : list (string * A)) : list (string * A) := filter (λ kv, kv.1 ≠ n) l.
Lemma drop_cons {A} n k (v : A) l : drop n ((k, v) :: l) = if String.eqb k n then drop n l else (k, v) :: drop n l.
Proof.
  unfold drop. rewrite filter_cons. simpl. destruct (String.eqb_spec k n) as [->|Hne].
  - rewrite decide_False; [done|]. intros H. by apply H.
  - by rewrite decide_True.
Qed.
Lemma mget_drop {A} n k (l : list (string * A)) : mget k (drop n l) = if String.eqb k n then None else mget k l.
Proof.
  induction l as [|[k' v] l IH]; [by destruct (String.eqb k n)|]. rewrite drop_cons. cbn [mget].
  destruct (String.eqb_spec k' n) as [->|Hne].
  - rewrite IH. by destruct (String.eqb k n).
  - cbn [mget]. rewrite IH. destruct (String.eqb_spec k k') as [->|]; [|done]. destruct (String.eqb_spec k' n); done.
Qed.
Lemma msorted_drop {A} n (l : list (string * A)) : msorted l → msorted (drop n l).
Proof.
  induction l as [|[k v] l IH]; [done|]. intros [H1 H2]. rewrite drop_cons. destruct (String.eqb k n); [auto|].
  split; [|auto]. rewrite Forall_forall in *. intros kv Hkv. apply H1. unfold drop in Hkv. by apply elem_of_list_filter in Hkv as [_ ?].
Qed.
Lemma mdel_mset {A} n k (v : A) m : msorted m → mdel n (mset k v m) = if String.eqb k n then mdel n m else mset k v (mdel n m).
Proof.
  intros Hm. apply gomap_ext.
  - apply msorted_mdel. by apply msorted_mset.
  - destruct (String.eqb k n); [by apply msorted_mdel|]. by apply msorted_mset, msorted_mdel.
  - intros x. destruct (String.eqb_spec k n) as [->|Hne].
    + destruct (decide (x = n)) as [->|Hx]; [by rewrite !mget_mdel_eq|]. rewrite !mget_mdel_ne by done. by rewrite mget_mset_ne.
    + destruct (decide (x = n)) as [->|Hx].
      * rewrite mget_mdel_eq, mget_mset_ne by done. by rewrite mget_mdel_eq.
      * rewrite mget_mdel_ne by done. destruct (decide (x = k)) as [->|Hxk].
        { by rewrite !mget_mset_eq. }
        by rewrite !mget_mset_ne, mget_mdel_ne by done.
Qed.
Lemma mdel_mof_list {A} n (l : list (string * A)) : mdel n (mof_list l) = mof_list (drop n l).
Proof.
  unfold mof_list. assert (∀ m, msorted m → mdel n (fold_left (λ m kv, mset kv.1 kv.2 m) l m) =
    fold_left (λ m kv, mset kv.1 kv.2 m) (drop n l) (mdel n m)) as H; [|by apply (H [])].
  induction l as [|[k v] l IH]; intros m Hm; [done|]. rewrite drop_cons. cbn [fold_left fst snd].
  rewrite IH by (by apply msorted_mset). rewrite mdel_mset by done. by destruct (String.eqb k n).
Qed.
Definition drop3 {A} (l : list (string * A)) := drop "on_failure" (drop "if" (drop "id" l)).
Lemma mdel_drop3 {A} (l : list (string * A)) : mdel "on_failure" (mdel "if" (mdel "id" (mof_list l))) = mof_list (drop3 l).
Proof. by rewrite !mdel_mof_list. Qed.
Lemma drop_fix n m : is_ascii n → drop n (map fixkv m) = map fixkv (drop n m).
Proof.
  intros Hn. induction m as [|[k j] m IH]; [done|]. simpl map. rewrite !drop_cons, IH.
  destruct (String.eqb_spec (fix_utf8 k) n) as [E|E], (String.eqb_spec k n) as [E'|E']; try done; exfalso; rewrite (fix_is n k Hn) in E; done.
Qed.
Lemma fields_drop n m : ∀ raw, fields_of_json m = Some raw → fields_of_json (drop n m) = Some (drop n raw).
Proof.
  unfold fields_of_json. induction m as [|[k j] m IH]; intros raw H; simpl in H; [by simplify_eq|].
  destruct (value_of_json j) as [t|] eqn:Ej; [|done]. match type of H with context [osequence ?x] => destruct (osequence x) as [ts|] eqn:E end; [|done].
  simplify_eq. rewrite !drop_cons. destruct (String.eqb k n); [by apply IH|]. simpl. rewrite Ej, (IH ts) by done. done.
Qed.
Lemma occ_mget n m : msorted m → (∀ k j, (k, j) ∈ m → lower k = n → k = n) → lower n = n →
  occ n m = match mget n m with Some j => [j] | None => [] end.
Proof.
  intros Hm Hk Hn. induction m as [|[k j] m IH]; [done|]. destruct Hm as [H1 H2]. rewrite occ_cons. cbn [mget].
  destruct (String.eqb_spec n k) as [<-|Hne].
  - destruct (String.eqb_spec (lower n) n); [|done]. f_equal.
    assert (∀ kv, kv ∈ m → kv.1 ≠ n) as Hx.
    { intros kv Hkv E. rewrite Forall_forall in H1. apply H1 in Hkv. rewrite E in Hkv. by apply slt_irrefl in Hkv. }
    clear -Hx Hk. induction m as [|[k' j'] m IHm]; [done|]. rewrite occ_cons. destruct (String.eqb_spec (lower k') n) as [E|E].
    + exfalso. apply (Hx (k', j')); [left|]. apply (Hk k' j'); [right; left|done].
    + apply IHm; [intros k0 j0 H0 E0; apply (Hk k0 j0); [apply elem_of_cons in H0 as [->|?]; [left|by right; right]|done]|].
      intros kv Hkv. apply Hx. by right.
  - destruct (String.eqb_spec (lower k) n) as [E|E]; [exfalso; apply Hne; symmetry; apply (Hk k j); [left|done]|].
    apply IH; [done|]. intros k' j' Hin. apply (Hk k' j'). by right.
Qed.

(** ** The data of MarshalJSON *)
Lemma oentries_some l js : oentries l = Some js ↔ l = map (λ kv, (kv.1, Some kv.2)) js.
Proof.
  revert js. induction l as [|[k [j|]] l IH]; intros js; simpl.
  - split; [by intros [= <-]|]. by destruct js.
  - destruct (oentries l) as [js'|].
    + split.
      * intros [= <-]. simpl. f_equal. by apply IH.
      * destruct js as [|[k' j'] js]; simpl; [done|]. intros [= -> -> H]. f_equal. f_equal. apply IH in H. congruence.
    + split; [done|]. destruct js as [|[k' j'] js]; simpl; [done|]. intros [= _ _ H]. by apply IH in H.
  - split; [done|]. by destruct js as [|[k' j'] js].
Qed.
Lemma oentries_exists l : Forall (λ kv : string * option json, kv.2 ≠ None) l → ∃ js, oentries l = Some js.
Proof.
  induction 1 as [|[k [j|]] l H Hl [js IH]]; [by exists []| |done]. exists ((k, j) :: js). simpl. by rewrite IH.
Qed.
Definition base_data (id cond : string) (onf : option (option json)) : list (string * option json) :=
  let data := [] in
  let data := if String.eqb id "" then data else mset "id" (Some (JStr id)) data in
  let data := if String.eqb cond "" then data else mset "if" (Some (JStr cond)) data in
  match onf with None => data | Some j => mset "on_failure" j data end.
Lemma base_data_eq id cond onf : base_data id cond onf =
  (if String.eqb id "" then [] else [("id", Some (JStr id))]) ++ (if String.eqb cond "" then [] else [("if", Some (JStr cond))]) ++
  match onf with None => [] | Some j => [("on_failure", j)] end.
Proof. unfold base_data. destruct (String.eqb id ""), (String.eqb cond ""), onf; reflexivity. Qed.
Lemma base_data_sorted id cond onf : msorted (base_data id cond onf).
Proof.
  unfold base_data. destruct (String.eqb id ""), (String.eqb cond ""), onf; repeat apply msorted_mset; done.
Qed.
Lemma fold_cfg_mget fmt (cfg : cfgmap) : ∀ d k, msorted cfg →
  mget k (fold_left (λ d kv, mset kv.1 (json_of_tree fmt kv.2) d) cfg d) =
  match mget k cfg with Some t => Some (json_of_tree fmt t) | None => mget k d end.
Proof.
  induction cfg as [|[k' t] cfg IH]; intros d k Hs; [done|]. destruct Hs as [H1 H2]. cbn [fold_left fst snd mget].
  rewrite IH by done. destruct (String.eqb_spec k k') as [->|Hne].
  - destruct (mget k' cfg) as [t'|] eqn:E; [|by rewrite mget_mset_eq].
    exfalso. apply mget_Some_In in E. rewrite List.Forall_forall in H1. apply H1 in E. by apply slt_irrefl in E.
  - by rewrite mget_mset_ne.
Qed.
Lemma fold_cfg_sorted fmt (cfg : cfgmap) : ∀ d : list (string * option json), msorted d → msorted (fold_left (λ d kv, mset kv.1 (json_of_tree fmt kv.2) d) cfg d).
Proof. induction cfg as [|[k t] cfg IH]; intros d Hd; [done|]. simpl. apply IH. by apply msorted_mset. Qed.
Lemma opt_data_base fmt id cond onf cfg : opt_data fmt id cond onf cfg = fold_left (λ d kv, mset kv.1 (json_of_tree fmt kv.2) d) cfg (base_data id cond onf).
Proof. reflexivity. Qed.
Lemma assoc_mget fmt m js : assoc_json fmt m = Some js → ∀ k, mget k js = match mget k m with Some t => json_of_tree fmt t | None => None end.
Proof.
  unfold assoc_json. revert js. induction m as [|[k' t] m IH]; intros js H k; simpl in H; [by simplify_eq|].
  destruct (json_of_tree fmt t) as [j|] eqn:Ej; [|done]. match type of H with context [osequence ?x] => destruct (osequence x) as [ts|] eqn:E end; [|done].
  simplify_eq. cbn [mget]. destruct (String.eqb k k'); [done|]. by apply IH.
Qed.
Lemma assoc_keys fmt m js : assoc_json fmt m = Some js → mkeys m = mkeys js.
Proof.
  unfold assoc_json. revert js. induction m as [|[k' t] m IH]; intros js H; simpl in H; [by simplify_eq|].
  destruct (json_of_tree fmt t) as [j|] eqn:Ej; [|done]. match type of H with context [osequence ?x] => destruct (osequence x) as [ts|] eqn:E end; [|done].
  simplify_eq. simpl. f_equal. by apply IH.
Qed.
(** Everything about the entries, given the encoding of on_failure and of the options. *)
Section data.
  Context (fmt : Z → bool * Z * Z) (id cond : string) (onf : option json) (cfg : cfgmap) (cfgjs : list (string * json)).
  Context (Hs : msorted cfg) (Hr : Forall (λ kv, ¬ reserved_like kv.1) cfg) (Hc : assoc_json fmt cfg = Some cfgjs).
  Let data := opt_data fmt id cond (option_map Some onf) cfg.
  Definition base_js : list (string * json) :=
    (if String.eqb id "" then [] else [("id", JStr id)]) ++ (if String.eqb cond "" then [] else [("if", JStr cond)]) ++
    match onf with None => [] | Some j => [("on_failure", j)] end.
  Lemma base_js_data : base_data id cond (option_map Some onf) = map (λ kv, (kv.1, Some kv.2)) base_js.
  Proof. rewrite base_data_eq. unfold base_js. by destruct (String.eqb id ""), (String.eqb cond ""), onf. Qed.
  Lemma mget_data_js {A} k (l : list (string * A)) : mget k (map (λ kv, (kv.1, Some kv.2)) l) = option_map Some (mget k l).
  Proof. induction l as [|[k' v] l IH]; [done|]. simpl. by destruct (String.eqb k k'). Qed.
  Lemma mget_data k : mget k data = option_map Some (match mget k cfgjs with Some j => Some j | None => mget k base_js end).
  Proof.
    unfold data. rewrite opt_data_base, fold_cfg_mget by done. rewrite (assoc_mget _ _ _ Hc). rewrite base_js_data, mget_data_js.
    destruct (mget k cfg) as [t|] eqn:E; [|done].
    destruct (json_of_tree fmt t) as [j|] eqn:Ej; [done|]. exfalso.
    pose proof (assoc_json_none fmt cfg) as [_ Hn]. rewrite Hc in Hn. assert (Some cfgjs = None) as [=]. apply Hn.
    apply has_nonfinite_obj. exists (k, t). split; [by apply elem_of_list_In, mget_Some_In|]. by apply (json_of_tree_none fmt).
  Qed.
  Lemma data_sorted : msorted data.
  Proof. unfold data. rewrite opt_data_base. apply fold_cfg_sorted, base_data_sorted. Qed.
  Lemma data_js : ∃ js, oentries data = Some js ∧ msorted js ∧
    ∀ k, mget k js = match mget k cfgjs with Some j => Some j | None => mget k base_js end.
  Proof.
    destruct (oentries_exists data) as [js E].
    { apply Forall_forall. intros [k oj] Hin. apply elem_of_list_In, mget_In in Hin; [|apply data_sorted].
      rewrite mget_data in Hin. simpl. destruct (match mget k cfgjs with Some j => Some j | None => _ end); simpl in Hin; congruence. }
    exists js. split; [done|]. apply oentries_some in E. split.
    - eapply keys_msorted; [|apply data_sorted]. rewrite E. unfold mkeys. rewrite map_map. done.
    - intros k. pose proof (mget_data k) as H. rewrite E, mget_data_js in H.
      destruct (mget k js), (match mget k cfgjs with Some j => Some j | None => _ end); simpl in H; congruence.
  Qed.
  Lemma cfgjs_sorted : msorted cfgjs.
  Proof. eapply keys_msorted; [by eapply assoc_keys|done]. Qed.
  Lemma cfgjs_not_reserved k j : (k, j) ∈ cfgjs → ¬ reserved_like k.
  Proof.
    intros Hin. assert (k ∈ mkeys cfg) as Hk.
    { rewrite (assoc_keys _ _ _ Hc). apply elem_of_list_fmap. by exists (k, j). }
    apply elem_of_list_fmap in Hk as (kv & -> & Hkv). rewrite Forall_forall in Hr. by apply Hr.
  Qed.
  Lemma base_js_reserved k j : (k, j) ∈ base_js → k = "id" ∨ k = "if" ∨ k = "on_failure".
  Proof.
    unfold base_js. rewrite !elem_of_app. destruct (String.eqb id ""), (String.eqb cond ""), onf; set_solver.
  Qed.
  Context (js : list (string * json)) (Hjs : msorted js)
    (Hm : ∀ k, mget k js = match mget k cfgjs with Some j => Some j | None => mget k base_js end).
  Lemma base_js_NoDup : NoDup (mkeys base_js).
  Proof. unfold base_js. apply (bool_decide_eq_true_1 _). by destruct (String.eqb id ""), (String.eqb cond ""), onf. Qed.
  Lemma base_js_sorted : msorted base_js.
  Proof.
    pose proof (base_data_sorted id cond (option_map Some onf)) as H. rewrite base_js_data in H.
    eapply keys_msorted; [|exact H]. unfold mkeys. by rewrite map_map.
  Qed.
  Lemma js_in k j : (k, j) ∈ js ↔ (k, j) ∈ cfgjs ∨ (k, j) ∈ base_js.
  Proof.
    assert (∀ l : list (string * json), msorted l → ((k, j) ∈ l ↔ mget k l = Some j)) as Hl.
    { intros l Hl. rewrite elem_of_list_In. split; [by apply mget_In|apply mget_Some_In]. }
    rewrite (Hl js Hjs), (Hl _ cfgjs_sorted), (Hl _ base_js_sorted), Hm.
    destruct (mget k cfgjs) as [j'|] eqn:E.
    - split; [by left|]. intros [H|H]; [done|]. exfalso. apply mget_Some_In, elem_of_list_In in E. apply cfgjs_not_reserved in E.
      apply mget_Some_In, elem_of_list_In, base_js_reserved in H. apply E. unfold reserved_like. destruct H as [->|[->| ->]]; vm_compute; auto.
    - split; [by right|]. by intros [H|H].
  Qed.
  Lemma js_occ n : n = "id" ∨ n = "if" ∨ n = "on_failure" → occ n js = match mget n base_js with Some j => [j] | None => [] end.
  Proof.
    intros Hn. assert (lower n = n) as Hl by (destruct Hn as [->|[->| ->]]; reflexivity).
    rewrite (occ_mget n js Hjs); [| |done].
    - rewrite Hm. destruct (mget n cfgjs) as [j'|] eqn:E; [|done]. exfalso.
      apply mget_Some_In, elem_of_list_In, cfgjs_not_reserved in E. apply E. unfold reserved_like. rewrite Hl. done.
    - intros k j [Hin|Hin]%js_in Hk.
      + exfalso. apply cfgjs_not_reserved in Hin. apply Hin. unfold reserved_like. rewrite Hk. done.
      + apply base_js_reserved in Hin. rewrite <- Hk. destruct Hin as [->|[->| ->]]; reflexivity.
  Qed.
  Lemma js_drop3 : drop3 js = cfgjs.
  Proof.
    apply gomap_ext; [by repeat apply msorted_drop|apply cfgjs_sorted|]. intros k. unfold drop3. rewrite !mget_drop, Hm.
    destruct (mget k cfgjs) as [j|] eqn:E.
    - apply mget_Some_In, elem_of_list_In, cfgjs_not_reserved in E.
      destruct (String.eqb_spec k "on_failure") as [->|]; [exfalso; apply E; vm_compute; auto|].
      destruct (String.eqb_spec k "if") as [->|]; [exfalso; apply E; vm_compute; auto|].
      destruct (String.eqb_spec k "id") as [->|]; [exfalso; apply E; vm_compute; auto|]. done.
    - destruct (mget k base_js) as [j|] eqn:Eb.
      + apply mget_Some_In, elem_of_list_In, base_js_reserved in Eb. by destruct Eb as [->|[->| ->]].
      + by destruct (String.eqb k "on_failure"), (String.eqb k "if"), (String.eqb k "id").
  Qed.
End data.

(** ** Depth *)
Lemma fold_max_le {A} (f : A → Z) l d : fold_right (λ x n, Z.max (f x) n) 0 l ≤ d ↔ 0 ≤ d ∧ ∀ x, x ∈ l → f x ≤ d.
Proof.
  induction l as [|x l IH]; simpl.
  - split; [intros H; split; [done|]; intros x Hx; by apply elem_of_nil in Hx|]. by intros [H _].
  - split.
    + intros H. assert (fold_right (λ x n, Z.max (f x) n) 0 l ≤ d) as H' by lia. apply IH in H' as [H0 H1]. split; [done|].
      intros y Hy. apply elem_of_cons in Hy as [->|Hy]; [lia|auto].
    + intros [H0 H1]. assert (f x ≤ d) by (apply H1; left). assert (fold_right (λ x n, Z.max (f x) n) 0 l ≤ d).
      { apply IH. split; [done|]. intros y Hy. apply H1. by right. }
      lia.
Qed.
Lemma le_ext a b : (∀ d, a ≤ d ↔ b ≤ d) → a = b.
Proof. intros H. pose proof (proj1 (H a)). pose proof (proj2 (H b)). lia. Qed.
Definition proc_depth (p : pcfg) : Z :=
  1 + fold_right (λ (kv : string * option ocfg) n, Z.max (let '(_, o) := kv in match o with Some o => odepth o | None => 0 end) n) 0 p.
Definition procs_depth (l : list pcfg) : Z := 1 + fold_right (λ p n, Z.max (proc_depth p) n) 0 l.
Lemma odepth_eq id cond onf cfg : odepth (OptCfg id cond onf cfg) =
  1 + Z.max (match onf with [] => 0 | _ => procs_depth onf end)
        (fold_right (λ (kv : string * tree) n, Z.max (let '(_, t) := kv in tdepth t) n) 0 cfg).
Proof. reflexivity. Qed.
Definition proc_returned (p : pcfg) : pcfg :=
  mof_list (map (λ kv : string * option ocfg, let '(k, o) := kv in
     (fix_utf8 k, match o with Some o => Some (opt_returned o) | None => None end)) p).
Lemma opt_returned_eq id cond onf cfg : opt_returned (OptCfg id cond onf cfg) =
  OptCfg (fix_utf8 id) (fix_utf8 cond) (map proc_returned onf) (fields_returned cfg).
Proof. reflexivity. Qed.

(** ** The round trip *)
Definition opt_rt (fmt : Z → bool * Z * Z) (c : ocfg) : Prop :=
  ∃ js, optJSON fmt c = Some (JObj js) ∧ opt_of_json (jfix (JObj js)) = Some (opt_returned c) ∧
    (∃ t, value_of_json (jfix (JObj js)) = Some t) ∧ jwf (JObj js) ∧ jdepth (JObj js) = odepth c.
Lemma proc_rt fmt p : Forall (optP (opt_rt fmt)) p →
  ∃ js, procJSON fmt p = Some (JObj js) ∧ (∃ es, dec_proc (jfix (JObj js)) = Some (Some es) ∧ mof_list es = proc_returned p) ∧
    (∃ t, value_of_json (jfix (JObj js)) = Some t) ∧ jwf (JObj js) ∧ jdepth (JObj js) = proc_depth p.
Proof.
  intros H. unfold procJSON, proc_returned, proc_depth.
  assert (∃ js es ts, osequence (map (λ kv : string * option ocfg, let '(k, o) := kv in
      match o with None => Some (k, JNull) | Some o => match optJSON fmt o with Some j => Some (k, j) | None => None end end) p) = Some js ∧
    osequence (map dec_entry (map fixkv js)) = Some es ∧ es = map (λ kv : string * option ocfg, let '(k, o) := kv in
     (fix_utf8 k, match o with Some o => Some (opt_returned o) | None => None end)) p ∧
    fields_of_json (map fixkv js) = Some ts ∧ Forall (λ kv, jwf kv.2) js ∧
    fold_right (λ (kv : string * json) n, Z.max (let '(_, j) := kv in jdepth j) n) 0 js =
      fold_right (λ (kv : string * option ocfg) n, Z.max (let '(_, o) := kv in match o with Some o => odepth o | None => 0 end) n) 0 p)
    as (js & es & ts & E1 & E2 & -> & E3 & E4 & E5).
  { induction H as [|[k [o|]] p Ho Hp (js & es & ts & E1 & E2 & E2' & E3 & E4 & E5)].
    - exists [], [], []. split_and!; try done.
    - destruct Ho as (js1 & O1 & O2 & (t & O3) & O4 & O5).
      exists ((k, JObj js1) :: js), ((fix_utf8 k, Some (opt_returned o)) :: es), ((fix_utf8 k, t) :: ts).
      cbn [map osequence]. rewrite O1, E1. split_and!.
      + done.
      + cbn [dec_entry]. change (jfix (JObj js1)) with (JObj (map fixkv js1)) in *. rewrite O2. by rewrite E2.
      + by rewrite <- E2'.
      + unfold fields_of_json in *. cbn [map osequence]. rewrite O3, E3. done.
      + by constructor.
      + cbn [fold_right]. by rewrite O5, E5.
    - exists ((k, JNull) :: js), ((fix_utf8 k, None) :: es), ((fix_utf8 k, TNil) :: ts).
      cbn [map osequence]. rewrite E1. split_and!.
      + done.
      + cbn [dec_entry jfix]. by rewrite E2.
      + by rewrite <- E2'.
      + unfold fields_of_json in *. cbn [map osequence jfix value_of_json]. by rewrite E3.
      + by constructor.
      + cbn [fold_right jdepth]. by rewrite E5. }
  exists js. rewrite E1. split_and!; try done.
  - eexists. cbn [jfix dec_proc]. rewrite E2. by split.
  - exists (TObj (mof_list ts)). cbn [jfix value_of_json]. unfold fields_of_json in E3. by rewrite E3.
  - by apply jwf_obj.
  - cbn [jdepth]. by rewrite E5.
Qed.
Lemma procs_rt fmt l : Forall (Forall (optP (opt_rt fmt))) l →
  ∃ js, procsJSON fmt l = Some (JArr js) ∧ dec_onf [jfix (JArr js)] = Some (map proc_returned l) ∧
    (∃ t, value_of_json (jfix (JArr js)) = Some t) ∧ jwf (JArr js) ∧ jdepth (JArr js) = procs_depth l.
Proof.
  intros H. unfold procsJSON, procs_depth.
  assert (∃ js ts, osequence (map (procJSON fmt) l) = Some js ∧ (∃ es, osequence (map dec_proc (map jfix js)) = Some (map Some es) ∧ map mof_list es = map proc_returned l) ∧
    osequence (map value_of_json (map jfix js)) = Some ts ∧ Forall jwf js ∧
    fold_right (λ j n, Z.max (jdepth j) n) 0 js = fold_right (λ p n, Z.max (proc_depth p) n) 0 l) as (js & ts & E1 & (es & E2 & E2') & E3 & E4 & E5).
  { induction H as [|p l Hp Hl (js & ts & E1 & (es & E2 & E2') & E3 & E4 & E5)]; [exists [], []; split_and!; try done; by exists []|].
    destruct (proc_rt fmt p Hp) as (js1 & O1 & (es1 & O2 & O2') & (t & O3) & O4 & O5).
    exists (JObj js1 :: js), (t :: ts). cbn [map osequence]. rewrite O1, E1, O2, E2, O3, E3. split_and!; try done.
    - exists (es1 :: es). cbn [map]. by rewrite O2', E2'.
    - by constructor.
    - cbn [fold_right]. by rewrite O5, E5. }
  exists js. rewrite E1. split_and!; try done.
  - rewrite <- E2'. apply dec_onf_one. cbn [jfix dec_procs]. by rewrite E2.
  - exists (TArr ts). cbn [jfix value_of_json]. by rewrite E3.
  - by apply jwf_arr.
  - cbn [jdepth]. by rewrite E5.
Qed.
Lemma fields_of_json_exists (m : list (string * json)) : (∀ k j, (k, j) ∈ m → ∃ t, value_of_json j = Some t) → ∃ raw, fields_of_json m = Some raw.
Proof.
  unfold fields_of_json. induction m as [|[k j] m IH]; intros H; [by exists []|].
  destruct (H k j ltac:(left)) as [t Ht]. destruct IH as [raw Hraw]; [intros k' j' Hin; apply (H k' j'); by right|].
  exists ((k, t) :: raw). cbn [map osequence]. by rewrite Ht, Hraw.
Qed.
Lemma fields_of_json_in (m : list (string * json)) ts : fields_of_json m = Some ts → ∀ k j, (k, j) ∈ m → ∃ t, value_of_json j = Some t.
Proof.
  unfold fields_of_json. revert ts. induction m as [|[k j] m IH]; intros ts H k' j' Hin; [by apply elem_of_nil in Hin|]. cbn [map osequence] in H.
  destruct (value_of_json j) as [t|] eqn:E; [|done]. destruct (osequence _) as [ts'|] eqn:E2 in H; [|done].
  apply elem_of_cons in Hin as [[= -> ->]|Hin]; [by exists t|]. by apply (IH ts' E2 k' j').
Qed.
Lemma names_ascii : is_ascii "id" ∧ is_ascii "if" ∧ is_ascii "on_failure" ∧ is_ascii "description" ∧ is_ascii "processors".
Proof. split_and!; apply name_ascii; reflexivity. Qed.
Lemma fix_utf8_nil : fix_utf8 "" = "".
Proof. reflexivity. Qed.

Lemma opt_round fmt c : float_format fmt → opt_fine c → opt_rt fmt c.
Proof.
  intros Hf. induction c as [id cond onf cfg IH] using optcfg_ind'.
  rewrite opt_fine_eq. intros (Hs & Hcfg & Honf).
  assert (Forall (Forall (optP (opt_rt fmt))) onf) as Hrt.
  { rewrite Forall_forall in *. intros p Hp. specialize (IH p Hp). destruct (Honf p Hp) as [_ Hfine].
    rewrite Forall_forall in *. intros [k [o|]] Hkv; [|done]. specialize (IH _ Hkv). specialize (Hfine _ Hkv). simpl in *. auto. }
  assert (∃ oj, match onf with [] => None | _ => Some (procsJSON fmt onf) end = option_map Some oj ∧
    match oj with None => onf = [] | Some j => onf ≠ [] ∧ dec_onf [jfix j] = Some (map proc_returned onf) ∧
      (∃ t, value_of_json (jfix j) = Some t) ∧ jwf j ∧ jdepth j = procs_depth onf end) as (oj & Eoj & Hoj).
  { destruct onf as [|p l]; [by exists None|]. destruct (procs_rt fmt _ Hrt) as (js & O1 & O2 & O3 & O4 & O5).
    exists (Some (JArr js)). rewrite O1. split; [done|]. split_and!; done. }
  clear IH Hrt Honf.
  destruct (fields_round fmt cfg (float_format_ok _ Hf)) as (cfgjs & ts & C1 & C2 & C3 & C4).
  { eapply Forall_impl; [exact Hcfg|]. intros kv [_ ?]. done. }
  assert (Forall (λ kv, ¬ reserved_like kv.1) cfg) as Hr.
  { eapply Forall_impl; [exact Hcfg|]. intros kv [? _]. done. }
  destruct (data_js fmt id cond oj cfg cfgjs Hs C1) as (js & E & Sjs & Mjs).
  pose proof (js_in fmt id cond oj cfg cfgjs Hs Hr C1 js Sjs Mjs) as Hin.
  pose proof (js_occ fmt id cond oj cfg cfgjs Hs Hr C1 js Sjs Mjs) as Hocc.
  pose proof (js_drop3 fmt id cond oj cfg cfgjs Hs Hr C1 js Sjs Mjs) as Hdrop.
  destruct names_ascii as (A1 & A2 & A3 & _).
  assert (Forall (λ kv, jwf kv.2) cfgjs) as Wc.
  { apply jwf_obj. apply (jwf_of_tree fmt (TObj cfg) Hf). cbn [json_of_tree]. unfold assoc_json in C1. by rewrite C1. }
  assert (∃ raw, fields_of_json (map fixkv js) = Some raw) as [raw Hraw].
  { apply fields_of_json_exists. intros k j Hkj. apply elem_of_list_fmap in Hkj as ([k0 j0] & [= -> ->] & Hkj).
    apply Hin in Hkj as [Hkj|Hkj].
    - apply (fields_of_json_in _ _ C3 (fix_utf8 k0)). apply elem_of_list_fmap. by exists (k0, j0).
    - unfold base_js in Hkj. rewrite !elem_of_app in Hkj. destruct Hkj as [Hkj|[Hkj|Hkj]].
      + destruct (String.eqb id ""); [by apply elem_of_nil in Hkj|]. apply elem_of_list_singleton in Hkj as [= -> ->]. by eexists.
      + destruct (String.eqb cond ""); [by apply elem_of_nil in Hkj|]. apply elem_of_list_singleton in Hkj as [= -> ->]. by eexists.
      + destruct oj as [j|]; [|by apply elem_of_nil in Hkj]. apply elem_of_list_singleton in Hkj as [= -> ->]. apply Hoj. }
  exists js. split_and!.
  - rewrite optJSON_eq, Eoj, E. done.
  - cbn [jfix]. rewrite opt_of_json_obj, Hraw, !occ_fix by done. rewrite !Hocc by auto.
    assert (mget "id" (base_js id cond oj) = if String.eqb id "" then None else Some (JStr id)) as ->.
    { unfold base_js. by destruct (String.eqb id ""), (String.eqb cond ""), oj. }
    assert (mget "if" (base_js id cond oj) = if String.eqb cond "" then None else Some (JStr cond)) as ->.
    { unfold base_js. by destruct (String.eqb id ""), (String.eqb cond ""), oj. }
    assert (mget "on_failure" (base_js id cond oj) = oj) as ->.
    { unfold base_js. by destruct (String.eqb id ""), (String.eqb cond ""), oj. }
    assert (dec_string (map jfix match (if String.eqb id "" then None else Some (JStr id)) with Some j => [j] | None => [] end) "" = Some (fix_utf8 id)) as ->.
    { destruct (String.eqb_spec id "") as [->|]; done. }
    assert (dec_string (map jfix match (if String.eqb cond "" then None else Some (JStr cond)) with Some j => [j] | None => [] end) "" = Some (fix_utf8 cond)) as ->.
    { destruct (String.eqb_spec cond "") as [->|]; done. }
    assert (dec_onf (map jfix match oj with Some j => [j] | None => [] end) = Some (map proc_returned onf)) as ->.
    { destruct oj as [j|]; [|by subst onf]. cbn [map]. destruct Hoj as (_ & -> & _). done. }
    rewrite opt_returned_eq, mdel_drop3. do 2 f_equal.
    apply (fields_drop "id"), (fields_drop "if"), (fields_drop "on_failure") in Hraw. rewrite !drop_fix in Hraw by done.
    fold (drop3 raw) (drop3 js) in Hraw. rewrite Hdrop, C3 in Hraw. injection Hraw as <-. done.
  - exists (TObj (mof_list raw)). cbn [jfix value_of_json]. unfold fields_of_json in Hraw. by rewrite Hraw.
  - apply jwf_obj, Forall_forall. intros [k j] Hkj. apply Hin in Hkj as [Hkj|Hkj]; [rewrite Forall_forall in Wc; by apply (Wc _ Hkj)|].
    unfold base_js in Hkj. rewrite !elem_of_app in Hkj. simpl. destruct Hkj as [Hkj|[Hkj|Hkj]].
    + destruct (String.eqb id ""); [by apply elem_of_nil in Hkj|]. apply elem_of_list_singleton in Hkj as [= -> ->]. done.
    + destruct (String.eqb cond ""); [by apply elem_of_nil in Hkj|]. apply elem_of_list_singleton in Hkj as [= -> ->]. done.
    + destruct oj as [j'|]; [|by apply elem_of_nil in Hkj]. apply elem_of_list_singleton in Hkj as [= -> ->]. apply Hoj.
  - rewrite odepth_eq. cbn [jdepth]. f_equal. cbn [jdepth tdepth] in C2.
    assert (fold_right (λ (kv : string * tree) n, Z.max (let '(_, t) := kv in tdepth t) n) 0 cfg =
            fold_right (λ (kv : string * json) n, Z.max (let '(_, j) := kv in jdepth j) n) 0 cfgjs) as -> by lia.
    apply le_ext. intros d. rewrite Z.max_lub_iff, !fold_max_le.
    assert (match oj with Some j => jdepth j | None => 0 end = match onf with [] => 0 | _ => procs_depth onf end) as <-.
    { destruct oj as [j|]; [|by subst onf]. destruct Hoj as (Hne & _ & _ & _ & ->). by destruct onf. }
    split.
    + intros [H0 H]. split_and!; [|done|].
      * destruct oj as [j|]; [|done]. apply (H ("on_failure", j)). apply Hin. right. unfold base_js. rewrite !elem_of_app. right. right. left.
      * intros [k j] Hkj. apply (H (k, j)). apply Hin. by left.
    + intros [H1 [H0 H]]. split; [done|]. intros [k j] Hkj. apply Hin in Hkj as [Hkj|Hkj]; [by apply (H (k, j))|].
      unfold base_js in Hkj. rewrite !elem_of_app in Hkj. simpl. destruct Hkj as [Hkj|[Hkj|Hkj]].
      * destruct (String.eqb id ""); [by apply elem_of_nil in Hkj|]. apply elem_of_list_singleton in Hkj as [= -> ->]. done.
      * destruct (String.eqb cond ""); [by apply elem_of_nil in Hkj|]. apply elem_of_list_singleton in Hkj as [= -> ->]. done.
      * destruct oj as [j'|]; [|by apply elem_of_nil in Hkj]. apply elem_of_list_singleton in Hkj as [= -> ->]. done.
Qed.
Lemma proc_stable p : msorted p → Forall (λ kv : string * option ocfg, valid_utf8 kv.1 ∧ optP (λ o, opt_returned o = o) kv) p → proc_returned p = p.
Proof.
  intros Hs H. unfold proc_returned. transitivity (mof_list p); [|by apply mof_list_sorted]. f_equal.
  rewrite <- (map_id p) at 2. apply map_ext_in. intros [k o] Hin. apply elem_of_list_In in Hin. rewrite Forall_forall in H.
  destruct (H _ Hin) as [Hk Ho]. simpl in *. rewrite (proj2 (fix_utf8_iff k) Hk). destruct o as [o|]; [|done]. by rewrite Ho.
Qed.
Lemma opt_stable_returned c : opt_fine c → opt_stable c → opt_returned c = c.
Proof.
  induction c as [id cond onf cfg IH] using optcfg_ind'.
  rewrite opt_fine_eq, opt_stable_eq, opt_returned_eq. intros (Hs & _ & Hf) (H1 & H2 & H3 & H4).
  rewrite (proj2 (fix_utf8_iff id) H1), (proj2 (fix_utf8_iff cond) H2). f_equal.
  - rewrite <- (map_id onf) at 2. apply map_ext_in. intros p Hp. apply elem_of_list_In in Hp.
    rewrite Forall_forall in IH, Hf, H4. destruct (Hf _ Hp) as [Hps Hpf]. specialize (IH _ Hp). specialize (H4 _ Hp).
    apply proc_stable; [done|]. rewrite Forall_forall in *. intros [k o] Hkv. specialize (IH _ Hkv). specialize (H4 _ Hkv). specialize (Hpf _ Hkv).
    destruct H4 as [? ?]. split; [done|]. destruct o; simpl in *; auto.
  - assert (json_returned (TObj cfg) = TObj cfg) as H.
    { apply json_stable_returned.
      - apply json_stable_obj. eapply Forall_impl; [exact H3|]. intros kv (? & ? & ?); try split; assumption.
      - apply tsorted_obj. split; [done|]. eapply Forall_impl; [exact H3|]. intros kv (? & ? & ?); try split; assumption. }
    cbn [json_returned] in H. injection H as H. exact H.
Qed.

(** ** Whole definitions *)
Definition procs_fine (l : list pcfg) : Prop := Forall (λ p : pcfg, msorted p ∧ Forall (optP opt_fine) p) l.
Definition config_returned (c : config cfgmap) : config cfgmap :=
  mkConfig (fix_utf8 (cf_id c)) (fix_utf8 (cf_desc c)) (map proc_returned (cf_procs c)) (map proc_returned (cf_onf c)).
Definition config_depth (c : config cfgmap) : Z :=
  1 + Z.max (match cf_procs c with [] => 0 | _ => procs_depth (cf_procs c) end) (match cf_onf c with [] => 0 | _ => procs_depth (cf_onf c) end).
Lemma jdepth_nonneg j : 0 ≤ jdepth j.
Proof. destruct j as [| | | |l|m]; simpl; try lia; [induction l; simpl; lia|induction m; simpl; lia]. Qed.
Lemma procs_fine_rt fmt l : float_format fmt → procs_fine l → Forall (Forall (optP (opt_rt fmt))) l.
Proof.
  intros Hf H. eapply Forall_impl; [exact H|]. intros p [_ Hp]. eapply Forall_impl; [exact Hp|].
  intros [k [o|]]; simpl; [|done]. by apply opt_round.
Qed.
Lemma config_round fmt c : float_format fmt → procs_fine (cf_procs c) → procs_fine (cf_onf c) →
  ∃ j, configJSON fmt c = Some j ∧ config_of_json (jfix j) = Some (config_returned c) ∧ jwf j ∧ jdepth j = config_depth c.
Proof.
  intros Hf H1 H2. destruct c as [id desc procs onf]. unfold configJSON, config_returned, config_depth. cbn [cf_id cf_desc cf_procs cf_onf] in *.
  assert (∀ l, procs_fine l → ∃ oj : option json, match l with [] => [] | _ => [procsJSON fmt l] end = match oj with Some j => [Some j] | None => [] end ∧
    match oj with None => l = [] | Some j => l ≠ [] ∧ dec_onf [jfix j] = Some (map proc_returned l) ∧ jwf j ∧ jdepth j = procs_depth l end) as Hp.
  { intros [|p l] Hl; [by exists None|]. destruct (procs_rt fmt _ (procs_fine_rt fmt _ Hf Hl)) as (js & O1 & O2 & O3 & O4 & O5).
    exists (Some (JArr js)). rewrite O1. split; [done|]. split_and!; done. }
  destruct (Hp _ H1) as (oj1 & P1 & P2). destruct (Hp _ H2) as (oj2 & Q1 & Q2).
  set (js := (if String.eqb id "" then [] else [("id", JStr id)]) ++ (if String.eqb desc "" then [] else [("description", JStr desc)]) ++
    match oj1 with Some j => [("processors", j)] | None => [] end ++ match oj2 with Some j => [("on_failure", j)] | None => [] end).
  assert (∀ (n : string) (l : list pcfg) oj, match l with [] => [] | _ => [procsJSON fmt l] end = match oj with Some j => [Some j] | None => [] end →
    match l with [] => [] | _ => [(n, procsJSON fmt l)] end = match oj with Some j => [(n, Some j)] | None => [] end) as Hn.
  { intros n [|p l] [j|]; try done. intros [= ->]. done. }
  exists (JObj js). split_and!.
  - rewrite (Hn _ _ _ P1), (Hn _ _ _ Q1). unfold js.
    by destruct (String.eqb id ""), (String.eqb desc ""), oj1, oj2.
  - destruct names_ascii as (A1 & A2 & A3 & A4 & A5). cbn [jfix config_of_json]. rewrite !occ_fix by done.
    assert (occ "id" js = if String.eqb id "" then [] else [JStr id]) as ->.
    { unfold js. by destruct (String.eqb id ""), (String.eqb desc ""), oj1, oj2. }
    assert (occ "description" js = if String.eqb desc "" then [] else [JStr desc]) as ->.
    { unfold js. by destruct (String.eqb id ""), (String.eqb desc ""), oj1, oj2. }
    assert (occ "processors" js = match oj1 with Some j => [j] | None => [] end) as ->.
    { unfold js. by destruct (String.eqb id ""), (String.eqb desc ""), oj1, oj2. }
    assert (occ "on_failure" js = match oj2 with Some j => [j] | None => [] end) as ->.
    { unfold js. by destruct (String.eqb id ""), (String.eqb desc ""), oj1, oj2. }
    assert (∀ s, dec_string (map jfix (if String.eqb s "" then [] else [JStr s])) "" = Some (fix_utf8 s)) as Hd.
    { intros s. destruct (String.eqb_spec s "") as [->|]; done. }
    rewrite !Hd.
    assert (∀ oj l, match oj with None => l = [] | Some j => l ≠ [] ∧ dec_onf [jfix j] = Some (map proc_returned l) ∧ jwf j ∧ jdepth j = procs_depth l end →
      dec_onf (map jfix match oj with Some j => [j] | None => [] end) = Some (map proc_returned l)) as Ho.
    { intros [j|] l; [|by intros ->]. intros (_ & E & _). cbn [map]. by rewrite E. }
    by rewrite (Ho _ _ P2), (Ho _ _ Q2).
  - apply jwf_obj. unfold js. rewrite !Forall_app. split_and!.
    + destruct (String.eqb id ""); by repeat constructor.
    + destruct (String.eqb desc ""); by repeat constructor.
    + destruct oj1; repeat constructor. simpl. tauto.
    + destruct oj2; repeat constructor. simpl. tauto.
  - assert (match oj1 with Some j => jdepth j | None => 0 end = match procs with [] => 0 | _ => procs_depth procs end) as <-.
    { destruct oj1 as [j|]; [|by subst procs]. destruct P2 as (? & _ & _ & ->). by destruct procs. }
    assert (match oj2 with Some j => jdepth j | None => 0 end = match onf with [] => 0 | _ => procs_depth onf end) as <-.
    { destruct oj2 as [j|]; [|by subst onf]. destruct Q2 as (? & _ & _ & ->). by destruct onf. }
    cbn [jdepth]. f_equal. unfold js. clear. pose proof jdepth_nonneg as Hn.
    destruct (String.eqb id ""), (String.eqb desc ""), oj1 as [j1|], oj2 as [j2|]; try pose proof (Hn j1); try pose proof (Hn j2); cbn; lia.
Qed.
