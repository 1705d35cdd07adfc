(** * Pipeline definitions as JSON: pkg/pipeline/config.go, with encoding/json. *)
From Verif Require Export JsonEvent PipelineNew PipelineNewFacts.
From Coq Require Import Lia.
Local Open Scope Z_scope.

(** config.go:34-39: option blocks; the inline options are a map[string]interface{}, its
    values trees without TNull and TTime: nil, bool, int64, uint64, float64, string,
    []interface{} and map[string]interface{}, which encoding/json encodes as it encodes
    the event values ([json_of_tree]) and decodes as them ([value_of_json]).  Nil and
    empty slices and maps of the configuration types are identified (a nil
    ProcessorConfig is written null in Go and decoded as nil). *)
Notation cfgmap := (list (string * tree)).
Notation ocfg := (optcfg cfgmap).
Notation pcfg := (list (string * option ocfg)).

(** ** The model: encoding *)
Fixpoint oentries (l : list (string * option json)) : option (list (string * json)) :=
  match l with
  | [] => Some []
  | (k, oj) :: l' => match oj, oentries l' with Some j, Some js => Some ((k, j) :: js) | _, _ => None end
  end.
(** config.go:89-105 MarshalJSON.  [data] starts as {}; an entry of [data] is the
    encoding json.Marshal(data) gives the value, None an error. *)
Definition opt_data (fmt : Z → bool * Z * Z) (id cond : string) (onf : option (option json)) (cfg : cfgmap) : list (string * option json) :=
  let data := [] in
  let data := if String.eqb id "" then data else mset "id" (Some (JStr id)) data in
  let data := if String.eqb cond "" then data else mset "if" (Some (JStr cond)) data in
  let data := match onf with None => data | Some j => mset "on_failure" j data end in
  fold_left (λ d kv, mset kv.1 (json_of_tree fmt kv.2) d) cfg data.
Fixpoint optJSON (fmt : Z → bool * Z * Z) (c : ocfg) : option json :=
  match c with
  | OptCfg id cond onf cfg =>
      let onfj := osequence (map (λ p : pcfg,
        match osequence (map (λ kv : string * option ocfg, let '(k, o) := kv in
                                match o with
                                | None => Some (k, JNull)
                                | Some o => match optJSON fmt o with Some j => Some (k, j) | None => None end
                                end) p) with
        | Some js => Some (JObj js)
        | None => None
        end) onf) in
      let onfe := match onf with [] => None | _ => Some (match onfj with Some js => Some (JArr js) | None => None end) end in
      match oentries (opt_data fmt id cond onfe cfg) with
      | Some js => Some (JObj js)
      | None => None
      end
  end.
(** The encoding of a []ProcessorConfig (the same expression as inside [optJSON]). *)
Definition procJSON (fmt : Z → bool * Z * Z) (p : pcfg) : option json :=
  match osequence (map (λ kv : string * option ocfg, let '(k, o) := kv in
                          match o with
                          | None => Some (k, JNull)
                          | Some o => match optJSON fmt o with Some j => Some (k, j) | None => None end
                          end) p) with
  | Some js => Some (JObj js)
  | None => None
  end.
Definition procsJSON (fmt : Z → bool * Z * Z) (l : list pcfg) : option json :=
  match osequence (map (procJSON fmt) l) with Some js => Some (JArr js) | None => None end.
(** json.Marshal of a ProcessorOptionConfig. *)
Definition MarshalOpt (fmt : Z → bool * Z * Z) (c : ocfg) : option (list ascii) :=
  match optJSON fmt c with
  | Some j => if jdepth j <=? maxNestingDepth then Some (render j) else None
  | None => None
  end.
(** json.Marshal of a Config (config.go:25-30): the fields in order, empty ones left
    out. *)
Definition configJSON (fmt : Z → bool * Z * Z) (c : config cfgmap) : option json :=
  match oentries
    ((if String.eqb (cf_id c) "" then [] else [("id", Some (JStr (cf_id c)))]) ++
     (if String.eqb (cf_desc c) "" then [] else [("description", Some (JStr (cf_desc c)))]) ++
     (match cf_procs c with [] => [] | _ => [("processors", procsJSON fmt (cf_procs c))] end) ++
     (match cf_onf c with [] => [] | _ => [("on_failure", procsJSON fmt (cf_onf c))] end)) with
  | Some js => Some (JObj js)
  | None => None
  end.
Definition MarshalConfig (fmt : Z → bool * Z * Z) (c : config cfgmap) : option (list ascii) :=
  match configJSON fmt c with
  | Some j => if jdepth j <=? maxNestingDepth then Some (render j) else None
  | None => None
  end.

(** ** The model: decoding *)
(** encoding/json matches an object's keys to the field names without regard to case.
    Of the letters in the names only s (in "processors" and "description") has a
    variant outside ASCII, U+017F, in UTF-8 the bytes C5 BF. *)
Definition lower1 (c : ascii) : ascii := if inr 65 90 c then zb (bz c + 32) else c.
Fixpoint lower_bytes (l : list ascii) : list ascii :=
  match l with
  | [] => []
  | a :: l' =>
      match l' with
      | b :: l'' => if (bz a =? 0xC5) && (bz b =? 0xBF) then "s"%char :: lower_bytes l'' else lower1 a :: lower_bytes l'
      | [] => [lower1 a]
      end
  end.
Definition lower (s : string) : string := string_of_list_ascii (lower_bytes (list_ascii_of_string s)).
(** The values under the keys that match [n], in order. *)
Definition occ (n : string) (m : list (string * json)) : list json :=
  map snd (filter (λ kv : string * json, lower kv.1 = n) m).
(** A string field: null leaves it as it was, anything but a string is an error. *)
Fixpoint dec_string (l : list json) (s : string) : option string :=
  match l with
  | [] => Some s
  | JNull :: l' => dec_string l' s
  | JStr s' :: l' => dec_string l' s'
  | _ :: _ => None
  end.
(** A value for a []ProcessorConfig field, decoded: None is null; an element None is
    null, any other lists the members of an object. *)
Notation slval := (option (list (option pcfg))).
(** Decoding a value into a slice field that may hold something: [b] is what the slice's
    array holds, [n] its length.  null and [[]] replace the slice; otherwise element i
    is decoded into place i: null empties the map there, an object adds its members to
    it, each decoded into a fresh option block.  What lies beyond the new length stays in
    the array. *)
Fixpoint over (l : list (option pcfg)) (b : list pcfg) : list pcfg :=
  match l with
  | [] => b
  | x :: l' =>
      match x with None => [] | Some es => fold_left (λ m kv, mset kv.1 kv.2 m) es (hd [] b) end :: over l' (tl b)
  end.
Definition slice_write (st : list pcfg * nat) (v : slval) : list pcfg * nat :=
  match v with
  | None | Some [] => ([], O)
  | Some l => (over l st.1, length l)
  end.
(** The slice after the values of all keys that match the field. *)
Definition slice_of (vs : list slval) : list pcfg :=
  let '(b, n) := fold_left slice_write vs ([], O) in firstn n b.
(** config.go:63-85 UnmarshalJSON into a zero ProcessorOptionConfig. *)
Fixpoint opt_of_json (j : json) : option ocfg :=
  match j with
  | JNull => Some (OptCfg "" "" [] [])
  | JObj m =>
      let onf :=
        (fix go (m : list (string * json)) : option (list slval) :=
           match m with
           | [] => Some []
           | (k, j) :: m' =>
               if String.eqb (lower k) "on_failure" then
                 match
                   match j with
                   | JNull => Some None
                   | JArr l =>
                       match osequence (map (λ p,
                         match p with
                         | JNull => Some None
                         | JObj e =>
                             match osequence (map (λ kv : string * json, let '(k, j) := kv in
                                                     match j with
                                                     | JNull => Some (k, None)
                                                     | _ => match opt_of_json j with Some o => Some (k, Some o) | None => None end
                                                     end) e) with
                             | Some es => Some (Some es)
                             | None => None
                             end
                         | _ => None
                         end) l) with
                       | Some l => Some (Some l)
                       | None => None
                       end
                   | _ => None
                   end, go m'
                 with
                 | Some v, Some vs => Some (v :: vs)
                 | _, _ => None
                 end
               else go m'
           end) m in
      match dec_string (occ "id" m) "", dec_string (occ "if" m) "", onf, fields_of_json m with
      | Some id, Some cond, Some vs, Some raw =>
          Some (OptCfg id cond (slice_of vs) (mdel "on_failure" (mdel "if" (mdel "id" (mof_list raw)))))
      | _, _, _, _ => None
      end
  | _ => None
  end.
(** The same expressions as inside [opt_of_json]. *)
Definition dec_entry (kv : string * json) : option (string * option ocfg) :=
  let '(k, j) := kv in
  match j with
  | JNull => Some (k, None)
  | _ => match opt_of_json j with Some o => Some (k, Some o) | None => None end
  end.
Definition dec_proc (p : json) : option (option pcfg) :=
  match p with
  | JNull => Some None
  | JObj e => match osequence (map dec_entry e) with Some es => Some (Some es) | None => None end
  | _ => None
  end.
Definition dec_procs (j : json) : option slval :=
  match j with
  | JNull => Some None
  | JArr l => match osequence (map dec_proc l) with Some l => Some (Some l) | None => None end
  | _ => None
  end.
Definition dec_onf (l : list json) : option (list pcfg) :=
  match osequence (map dec_procs l) with Some vs => Some (slice_of vs) | None => None end.
(** json.Unmarshal into a zero ProcessorOptionConfig, and into a zero Config. *)
Definition UnmarshalOpt (text : list ascii) : option ocfg :=
  match parse text with
  | Some j => if jdepth j <=? maxNestingDepth then opt_of_json j else None
  | None => None
  end.
Definition config_of_json (j : json) : option (config cfgmap) :=
  match j with
  | JNull => Some (mkConfig "" "" [] [])
  | JObj m =>
      match dec_string (occ "id" m) "", dec_string (occ "description" m) "",
            dec_onf (occ "processors" m), dec_onf (occ "on_failure" m) with
      | Some id, Some desc, Some procs, Some onf => Some (mkConfig id desc procs onf)
      | _, _, _, _ => None
      end
  | _ => None
  end.
Definition UnmarshalConfig (text : list ascii) : option (config cfgmap) :=
  match parse text with
  | Some j => if jdepth j <=? maxNestingDepth then config_of_json j else None
  | None => None
  end.

(** ** Specification *)
(** The names encoding/json takes for the id, if and on_failure fields. *)
Definition reserved_like (k : string) : Prop := lower k = "id" ∨ lower k = "if" ∨ lower k = "on_failure".
(** What comes back: strings with invalid UTF-8 replaced, options as [json_returned]
    says (numbers as float64). *)
Fixpoint opt_returned (c : ocfg) : ocfg :=
  match c with
  | OptCfg id cond onf cfg =>
      OptCfg (fix_utf8 id) (fix_utf8 cond)
        (map (λ p : pcfg, mof_list (map (λ kv : string * option ocfg, let '(k, o) := kv in
           (fix_utf8 k, match o with Some o => Some (opt_returned o) | None => None end)) p)) onf)
        (fields_returned cfg)
  end.
(** No option name is a variant of id, if or on_failure and no number is NaN or
    infinite, at any depth; maps are maps (distinct keys). *)
Fixpoint opt_fine (c : ocfg) : Prop :=
  match c with
  | OptCfg id cond onf cfg =>
      msorted cfg ∧ Forall (λ kv, ¬ reserved_like kv.1 ∧ jsonable kv.2) cfg ∧
      (fix go (l : list pcfg) := match l with
       | [] => True
       | p :: l' => (msorted p ∧ (fix go2 (e : pcfg) := match e with
                     | [] => True
                     | (_, None) :: e' => go2 e'
                     | (_, Some o) :: e' => opt_fine o ∧ go2 e'
                     end) p) ∧ go l'
       end) onf
  end.
(** Moreover everything is of the kinds JSON can carry. *)
Fixpoint opt_stable (c : ocfg) : Prop :=
  match c with
  | OptCfg id cond onf cfg =>
      valid_utf8 id ∧ valid_utf8 cond ∧
      Forall (λ kv, tsorted kv.2 ∧ valid_utf8 kv.1 ∧ json_stable kv.2) cfg ∧
      (fix go (l : list pcfg) := match l with
       | [] => True
       | p :: l' => (fix go2 (e : pcfg) := match e with
                     | [] => True
                     | (k, None) :: e' => valid_utf8 k ∧ go2 e'
                     | (k, Some o) :: e' => (valid_utf8 k ∧ opt_stable o) ∧ go2 e'
                     end) p ∧ go l'
       end) onf
  end.
(** Nesting depth of the JSON. *)
Fixpoint odepth (c : ocfg) : Z :=
  match c with
  | OptCfg id cond onf cfg =>
      1 + Z.max (match onf with [] => 0 | _ => 1 + fold_right (λ (p : pcfg) n, Z.max
                   (1 + fold_right (λ (kv : string * option ocfg) n,
                          Z.max (let '(_, o) := kv in match o with Some o => odepth o | None => 0 end) n) 0 p) n) 0 onf end)
            (fold_right (λ (kv : string * tree) n, Z.max (let '(_, t) := kv in tdepth t) n) 0 cfg)
  end.
