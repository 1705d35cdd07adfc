(** * What a Value holds in full, and what json.Unmarshal makes of it: the specification.

    A value as a tree with everything that matters for the next decoding: all fields,
    whatever the type, and the array slots behind the length. *)
From Verif Require Export Reuse.

(** ** What a value holds *)
(** value.go:62-72, the fields of a Value other than Array and Object. *)
Record fields : Type := mkFields {
  f_int : Z; f_uint : Z; f_float : Z; f_ts : Z; f_str : string; f_bool : bool; f_type : N
}.
(** value.go:62-72: a *Value.  [arr]: the elements, and the slots between length and
    capacity; [None] is the nil slice, or the nil map. *)
Inductive mem : Type :=
| MNil
| Mem (f : fields) (arr : option (list mem * list mem)) (obj : option (list (string * mem))).
Definition fields_of (v : Value) : fields :=
  mkFields (v_int v) (v_uint v) (v_float v) (v_ts v) (v_str v) (v_bool v) (v_type v).
(** value.go:62-72: the zero Value. *)
Definition zero_mem : mem := Mem (fields_of zeroValue) None None.
Definition to_type (f : fields) (ty : N) : fields :=
  mkFields (f_int f) (f_uint f) (f_float f) (f_ts f) (f_str f) (f_bool f) ty.
Definition slots_of (a : option (list mem * list mem)) : list mem :=
  match a with Some (vis, hid) => vis ++ hid | None => [] end.
Definition visible (a : option (list mem * list mem)) : nat :=
  match a with Some (vis, _) => length vis | None => 0 end.

(** Value [p] holds [m], with the arrays and maps [cs]; capacity beyond the last slot that
    is not nil does not matter. *)
Inductive holds (s : vstore) : option ptr → mem → list loc → Prop :=
| hd_nil : holds s None MNil []
| hd_val p a o ca co : in_store s p → harr s p a ca → hobj s p o co →
    holds s (Some p) (Mem (fields_of (load s p)) a o) (LArr p :: ca ++ co)
with harr (s : vstore) : ptr → option (list mem * list mem) → list loc → Prop :=
| ha_none p : v_arr (load s p) = None → harr s p None []
| ha_some p l vis hid c : v_arr (load s p) = Some l → length vis = length l →
    hslots s (l ++ vs_spare s p) (vis ++ hid) c → harr s p (Some (vis, hid)) c
with hobj (s : vstore) : ptr → option (list (string * mem)) → list loc → Prop :=
| ho_none p : v_obj (load s p) = None → hobj s p None []
| ho_some p r gm e c : v_obj (load s p) = Some r → hmaps (vs_heap s) !! r = Some gm → msorted gm →
    hassoc s gm e c → hobj s p (Some e) (LMap r :: c)
with hslots (s : vstore) : list (option ptr) → list mem → list loc → Prop :=
| hs_pad n : hslots s (replicate n None) [] []
| hs_cons op ops m ms c cs : holds s op m c → hslots s ops ms cs → hslots s (op :: ops) (m :: ms) (c ++ cs)
with hassoc (s : vstore) : list (string * option ptr) → list (string * mem) → list loc → Prop :=
| has_nil : hassoc s [] [] []
| has_cons k op gm m e c cs : holds s op m c → hassoc s gm e cs → hassoc s ((k, op) :: gm) ((k, m) :: e) (c ++ cs).
Scheme holds_mind := Minimality for holds Sort Prop with harr_mind := Minimality for harr Sort Prop
  with hobj_mind := Minimality for hobj Sort Prop with hslots_mind := Minimality for hslots Sort Prop
  with hassoc_mind := Minimality for hassoc Sort Prop.
Combined Scheme holds_mutind from holds_mind, harr_mind, hobj_mind, hslots_mind, hassoc_mind.

(** ** What decoding does *)
(** [over j m m' ok]: decoding [j] into [m] leaves [m'], with an error unless [ok].
    [over1]: the same for an element or entry, where null is the nil pointer and a nil
    pointer becomes a new Value.  [overs]: the elements of an array, given the slots there
    are, left to right: those decoded, and those behind.  [adds]: the entries an object
    adds, each a new value, up to the first that fails. *)
Inductive over : json → mem → mem → bool → Prop :=
| ov_null f a o : over JNull (Mem f a o) (Mem (to_type f NullType) a o) true
| ov_bool b f a o : over (JBool b) (Mem f a o) (Mem (mkFields (f_int f) (f_uint f) (f_float f) (f_ts f) (f_str f) b BoolType) a o) true
| ov_num neg n e b f a o : double_for neg n e b →
    over (JNum neg n e) (Mem f a o) (Mem (mkFields (f_int f) (f_uint f) b (f_ts f) (f_str f) (f_bool f) FloatType) a o) true
| ov_big neg n e f a o : (∀ b, ¬ double_for neg n e b) → over (JNum neg n e) (Mem f a o) (Mem f a o) false
| ov_str x f a o : over (JStr x) (Mem f a o) (Mem (mkFields (f_int f) (f_uint f) (f_float f) (f_ts f) x (f_bool f) StringType) a o) true
| ov_empty f a o : over (JArr []) (Mem f a o) (Mem (to_type f ArrayType) (Some ([], [])) o) true
| ov_arr j l f a o xs rest : overs (j :: l) (slots_of a) xs rest true →
    over (JArr (j :: l)) (Mem f a o) (Mem (to_type f ArrayType) (Some (xs, rest)) o) true
| ov_arr_fails l f a o xs rest vis hid : overs l (slots_of a) xs rest false →
    vis ++ hid = xs ++ rest → length vis = Nat.max (visible a) (length xs) →
    over (JArr l) (Mem f a o) (Mem f (Some (vis, hid)) o) false
| ov_obj es f a o new e ok : adds es new ok → later_wins (default [] o ++ new) e →
    over (JObj es) (Mem f a o) (Mem (if ok then to_type f ObjectType else f) a (Some e)) ok
with over1 : json → mem → mem → bool → Prop :=
| o1_null x : over1 JNull x MNil true
| o1_new j x ok : j ≠ JNull → over j zero_mem x ok → over1 j MNil x ok
| o1_old j f a o x ok : j ≠ JNull → over j (Mem f a o) x ok → over1 j (Mem f a o) x ok
with overs : list json → list mem → list mem → list mem → bool → Prop :=
| os_nil ms : overs [] ms [] ms true
| os_cons j l ms x xs rest ok : over1 j (hd MNil ms) x true → overs l (tl ms) xs rest ok → overs (j :: l) ms (x :: xs) rest ok
| os_fail j l ms x : over1 j (hd MNil ms) x false → overs (j :: l) ms [x] (tl ms) false
with adds : list (string * json) → list (string * mem) → bool → Prop :=
| ad_nil : adds [] [] true
| ad_cons k j es x new ok : over1 j MNil x true → adds es new ok → adds ((k, j) :: es) ((k, x) :: new) ok
| ad_fail k j es x : over1 j MNil x false → adds ((k, j) :: es) [] false.
Scheme over_mind := Minimality for over Sort Prop with over1_mind := Minimality for over1 Sort Prop
  with overs_mind := Minimality for overs Sort Prop with adds_mind := Minimality for adds Sort Prop.
Combined Scheme over_mutind from over_mind, over1_mind, overs_mind, adds_mind.

(** ** What a value shows *)
(** value.go:74-97: the field its type names. *)
Inductive displays : mem → tree → Prop :=
| dp_nil : displays MNil TNil
| dp_null f a o : f_type f = NullType → displays (Mem f a o) TNull
| dp_bool f a o : f_type f = BoolType → displays (Mem f a o) (TBool (f_bool f))
| dp_float f a o : f_type f = FloatType → displays (Mem f a o) (TFloat (f_float f))
| dp_int f a o : f_type f = IntegerType → displays (Mem f a o) (TInt (f_int f))
| dp_str f a o : f_type f = StringType → displays (Mem f a o) (TStr (f_str f))
| dp_time f a o : f_type f = TimestampType → displays (Mem f a o) (TTime (f_ts f))
| dp_uint f a o : f_type f = UnsignedIntegerType → displays (Mem f a o) (TUint (f_uint f))
| dp_nilarr f o : f_type f = ArrayType → displays (Mem f None o) TNilArr
| dp_arr f vis hid o ts : f_type f = ArrayType → Forall2 displays vis ts → displays (Mem f (Some (vis, hid)) o) (TArr ts)
| dp_nilobj f a : f_type f = ObjectType → displays (Mem f a None) TNilObj
| dp_obj f a e ts : f_type f = ObjectType → Forall2 (λ kx kt, kx.1 = kt.1 ∧ displays kx.2 kt.2) e ts → displays (Mem f a (Some e)) (TObj ts).
(** Wherever the text has an object, every name that the Object there has already occurs in
    it, also if that Object is not shown. *)
Inductive covered : json → mem → Prop :=
| cv_plain j m : (∀ l, j ≠ JArr l) → (∀ es, j ≠ JObj es) → covered j m
| cv_new j : covered j MNil
| cv_arr l f a o : (∀ i j, l !! i = Some j → covered j (nth i (slots_of a) MNil)) → covered (JArr l) (Mem f a o)
| cv_obj es f a o : (∀ k, k ∈ map fst (default [] o) → k ∈ map fst es) → covered (JObj es) (Mem f a o).
