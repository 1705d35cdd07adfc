(** * Converting Go values: pkg/eventutil/reflect.go and structtag.go *)
From Verif Require Export ProtobufEnd.
Local Open Scope Z_scope.

(** ** Go values, as far as package reflect shows them *)
(** What the code asks about a type: its name (only used in errors); whether it is
    the very type named in the type switch of interfaceToValue (bool, int, …, string,
    time.Time, map[string]interface{}) rather than another type of that kind; whether
    it implements error or fmt.Stringer and, if so, what the method returns for this
    value ([Panic] if the method panics). *)
Record tdesc : Type := mkT {
  t_name : string; t_exact : bool; t_err : option (Outcome string); t_str : option (Outcome string) }.
(** A struct field: name, whether exported, its `event` tag, whether the value is
    deeply equal to the zero value of its type. *)
Record finfo : Type := mkF { f_name : string; f_exported : bool; f_tag : string; f_zero : bool }.
(** A finite Go value in a location of its static type.  Integer kinds of all widths
    are one case, likewise floats (given as the bits of the float64) and arrays and
    slices (nil slices are empty).  [GMap]: entries in the order [range] visits them,
    keys as fmt prints them; [t_exact] means the type is map[string]interface{}.
    [GTime]: a time, or any type convertible to it, by its UnixNano.  [GIface]: a
    location whose static type is an interface.  [GOther]: channels, functions, complex
    numbers, unsafe pointers. *)
Inductive gval : Type :=
| GBool (d : tdesc) (b : bool)
| GInt (d : tdesc) (z : Z)
| GUint (d : tdesc) (z : Z)
| GUintptr (d : tdesc) (z : Z)
| GFloat (d : tdesc) (bits : Z)
| GString (d : tdesc) (s : string)
| GTime (d : tdesc) (ns : Z)
| GSlice (d : tdesc) (items : list gval)
| GMap (d : tdesc) (kvs : list (string * gval))
| GPtr (d : tdesc) (o : option gval)
| GIface (d : tdesc) (o : option gval)
| GStruct (d : tdesc) (fs : list (finfo * gval))
| GOther (d : tdesc).
Definition gdesc (v : gval) : tdesc :=
  match v with
  | GBool d _ | GInt d _ | GUint d _ | GUintptr d _ | GFloat d _ | GString d _ | GTime d _
  | GSlice d _ | GMap d _ | GPtr d _ | GIface d _ | GStruct d _ | GOther d => d
  end.

(** ** Results: a value, an error or a panic *)
(** [RUnsupported]: UnsupportedTypeError (reflect.go:36-42); [RKey]: the wrapping with
    fmt.Errorf("failed on key %q: %w") of reflect.go:87. *)
Inductive rerr : Type := RUnsupported (ty : string) | RKey (k : string) (e : rerr).
Inductive rres (A : Type) : Type := RVal (a : A) | RErr (e : rerr) | RPanic.
Arguments RVal {A} a. Arguments RErr {A} e. Arguments RPanic {A}.
Definition rbind {A B} (x : rres A) (f : A → rres B) : rres B :=
  match x with RVal a => f a | RErr e => RErr e | RPanic => RPanic end.
Definition rmapM {A B} (f : A → rres B) : list A → rres (list B) :=
  fix go l := match l with
              | [] => RVal []
              | x :: l' => rbind (f x) (λ y, rbind (go l') (λ ys, RVal (y :: ys)))
              end.

(** ** Struct tags *)
(** strings.Split(s, ","). *)
Fixpoint split_comma (s : string) : string * list string :=
  match s with
  | EmptyString => ("", [])
  | String c s' =>
      let '(h, t) := split_comma s' in
      if Ascii.eqb c ","%char then ("", h :: t) else (String c h, t)
  end.
(** structtag.go:34-37. *)
Definition parseTag (tag : string) : string * list string := split_comma tag.
(** structtag.go:24-32. *)
Fixpoint Has (opts : list string) (opt : string) : bool :=
  match opts with [] => false | o :: opts' => if String.eqb o opt then true else Has opts' opt end.

(** ** reflect.go *)
(** val.Interface().(fmt.Stringer): the method of the dynamic value. *)
Definition stringer (v : gval) : option (Outcome string) :=
  match v with
  | GIface _ None => None
  | GIface _ (Some x) => t_str (gdesc x)
  | _ => t_str (gdesc v)
  end.
(** reflect.go:215-236 structFields: is the field considered? *)
Definition considered (f : finfo) : bool := f_exported f && negb (String.eqb (f_tag f) "-").
(** reflect.go:171-213: the loop of reflectStructToObject; [rec false] is
    reflectToValue.  [lower]: strings.ToLower. *)
Definition struct_loop (lower : string → string) (rec : bool → gval → rres tree) :
    list (finfo * gval) → gomap tree → rres (gomap tree) :=
  fix go fs obj :=
    match fs with
    | [] => RVal obj
    | (f, v) :: fs' =>
        if negb (considered f) then go fs' obj
        else
          let '(tag, opts) := parseTag (f_tag f) in
          let name := if negb (String.eqb tag "") then tag else lower (f_name f) in
          if Has opts "omitempty" && f_zero f then go fs' obj
          else
            rbind (rec false v) (λ t,
              if Has opts "string" then
                match stringer v with
                | Some (Ok s) => go fs' (mset name (TStr s) obj)
                | Some Panic => RPanic
                | None => go fs' obj
                end
              else go fs' (mset name t obj))
    end.
(** reflect.go:100-138 reflectToValue with 140-153 reflectSliceToArray and 155-169
    reflectMapToObject. *)
Definition by_kind (lower : string → string) (rec : bool → gval → rres tree) (v : gval) : rres tree :=
  match t_err (gdesc v) with
  | Some (Ok s) => RVal (TStr s)
  | Some Panic => RPanic
  | None =>
      match v with
      | GPtr _ None => RVal TNull
      | GPtr _ (Some x) => rec false x
      | GBool _ b => RVal (TBool b)
      | GInt _ z => RVal (TInt z)
      | GUint _ z => RVal (TUint z)
      | GFloat _ z => RVal (TFloat z)
      | GString _ s => RVal (TStr s)
      | GSlice _ items => rbind (rmapM (rec true) items) (λ l, RVal (TArr l))
      | GMap _ kvs =>
          rbind (rmapM (λ kv : string * gval, rbind (rec true kv.2) (λ t, RVal (kv.1, t))) kvs)
            (λ l, RVal (TObj (mof_list l)))
      | GTime _ ns => RVal (TTime ns)
      | GStruct _ fs => rbind (struct_loop lower rec fs []) (λ m, RVal (TObj m))
      | GUintptr d _ | GIface d _ | GOther d => RErr (RUnsupported (t_name d))
      end
  end.
(** [conv true v]: interfaceToValue (reflect.go:48-98) on the interface value that
    v.Interface() gives; [conv false v]: reflectToValue (100-138).  The result is the
    tree built; [event.NullValue], a shared cell no code here writes to, is a fresh
    null. *)
Definition wrap_key {A} (k : string) (x : rres A) : rres A :=
  match x with RErr e => RErr (RKey k e) | _ => x end.
Fixpoint conv (lower : string → string) (ifc : bool) (v : gval) {struct v} : rres tree :=
  if ifc then
    match v with
    | GIface _ None => RVal TNull
    | GIface _ (Some x) => conv lower true x
    | GBool d b => if t_exact d then RVal (TBool b) else by_kind lower (conv lower) v
    | GFloat d z => if t_exact d then RVal (TFloat z) else by_kind lower (conv lower) v
    | GInt d z => if t_exact d then RVal (TInt z) else by_kind lower (conv lower) v
    | GUint d z => if t_exact d then RVal (TUint z) else by_kind lower (conv lower) v
    | GUintptr d z => if t_exact d then RVal (TUint z) else by_kind lower (conv lower) v
    | GString d s => if t_exact d then RVal (TStr s) else by_kind lower (conv lower) v
    | GTime d ns => if t_exact d then RVal (TTime ns) else by_kind lower (conv lower) v
    | GMap d kvs =>
        if t_exact d then
          rbind (rmapM (λ kv : string * gval,
                          rbind (wrap_key kv.1 (conv lower true kv.2)) (λ t, RVal (EscapeKey kv.1, t))) kvs)
            (λ l, RVal (TObj (mof_list l)))
        else by_kind lower (conv lower) v
    | _ => by_kind lower (conv lower) v
    end
  else by_kind lower (conv lower) v.
(** reflect.go:44-46 ReflectValue; [v] is the (dynamic) value passed. *)
Definition ReflectValue (lower : string → string) (v : gval) : rres tree := conv lower true v.

(** ** Specification *)
(** [part x v]: [x] is [v] or occurs somewhere in it. *)
Inductive part (x : gval) : gval → Prop :=
| part_here : part x x
| part_slice d items y : y ∈ items → part x y → part x (GSlice d items)
| part_map d kvs k y : (k, y) ∈ kvs → part x y → part x (GMap d kvs)
| part_ptr d y : part x y → part x (GPtr d (Some y))
| part_iface d y : part x y → part x (GIface d (Some y))
| part_field d fs f y : (f, y) ∈ fs → part x y → part x (GStruct d fs).
(** Facts about Go types: the types in the switch have no Error method; an interface
    holds no interface; if the static type is an error interface, its method is that of
    the value it holds, and panics if it holds nothing. *)
Definition go_rules_here (v : gval) : Prop :=
  (t_exact (gdesc v) = true → t_err (gdesc v) = None) ∧
  match v with
  | GIface d None => t_err d = None ∨ t_err d = Some Panic
  | GIface d (Some x) => (t_err d = None ∨ t_err d = t_err (gdesc x)) ∧ (∀ d' o, x ≠ GIface d' o)
  | _ => True
  end.
Definition go_value (v : gval) : Prop := ∀ x, part x v → go_rules_here x.
(** No Error or String method panics, no error interface is nil. *)
Definition calm (v : gval) : Prop :=
  ∀ x, part x v → t_err (gdesc x) ≠ Some Panic ∧ t_str (gdesc x) ≠ Some Panic.

(** Struct tags: [name], then options, separated by commas. *)
Definition no_comma (s : string) : Prop := ","%char ∉ list_ascii_of_string s.
Definition tag_reads (tag name : string) (opts : list string) : Prop :=
  no_comma name ∧ Forall no_comma opts ∧ tag = String.concat "," (name :: opts).
Definition tag_option (f : finfo) (o : string) : Prop := ∃ name opts, tag_reads (f_tag f) name opts ∧ o ∈ opts.
(** Fields that are left out. *)
Definition left_out (f : finfo) : Prop :=
  f_exported f = false ∨ f_tag f = "-" ∨ (tag_option f "omitempty" ∧ f_zero f = true).
(** The name a field gets. *)
Definition field_name (lower : string → string) (f : finfo) (n : string) : Prop :=
  ∃ name opts, tag_reads (f_tag f) name opts ∧ n = if String.eqb name "" then lower (f_name f) else name.

(** [mirrors ifc v t]: [t] shows [v].  Pointers and interfaces are replaced by what
    they hold, nil by null, errors by their text.  The keys of a map are its keys as
    fmt prints them, escaped if it is a map[string]interface{} held by an interface
    ([ifc]).  A struct is an object with the fields not left out, in order, the last of
    several of one name winning; a field with the option [string] shows what its String
    method returns, and nothing if it has none. *)
Inductive mirrors (lower : string → string) : bool → gval → tree → Prop :=
| mi_err ifc v s : (∀ d o, v ≠ GIface d o) → t_err (gdesc v) = Some (Ok s) → mirrors lower ifc v (TStr s)
| mi_iface_nil ifc d : mirrors lower ifc (GIface d None) TNull
| mi_iface ifc d x t : mirrors lower true x t → mirrors lower ifc (GIface d (Some x)) t
| mi_ptr_nil ifc d : t_err d = None → mirrors lower ifc (GPtr d None) TNull
| mi_ptr ifc d x t : t_err d = None → mirrors lower false x t → mirrors lower ifc (GPtr d (Some x)) t
| mi_bool ifc d b : t_err d = None → mirrors lower ifc (GBool d b) (TBool b)
| mi_int ifc d z : t_err d = None → mirrors lower ifc (GInt d z) (TInt z)
| mi_uint ifc d z : t_err d = None → mirrors lower ifc (GUint d z) (TUint z)
| mi_uintptr ifc d z : t_err d = None → mirrors lower ifc (GUintptr d z) (TUint z)
| mi_float ifc d z : t_err d = None → mirrors lower ifc (GFloat d z) (TFloat z)
| mi_string ifc d s : t_err d = None → mirrors lower ifc (GString d s) (TStr s)
| mi_time ifc d z : t_err d = None → mirrors lower ifc (GTime d z) (TTime z)
| mi_slice ifc d items ts : t_err d = None → Forall2 (mirrors lower true) items ts →
    mirrors lower ifc (GSlice d items) (TArr ts)
| mi_map ifc d kvs l : t_err d = None →
    Forall2 (λ kv nt, nt.1 = (if ifc && t_exact d then EscapeKey kv.1 else kv.1) ∧ mirrors lower true kv.2 nt.2) kvs l →
    mirrors lower ifc (GMap d kvs) (TObj (mof_list l))
| mi_struct ifc d fs l : t_err d = None → shown lower fs l → mirrors lower ifc (GStruct d fs) (TObj (mof_list l))
with shown (lower : string → string) : list (finfo * gval) → list (string * tree) → Prop :=
| sh_nil : shown lower [] []
| sh_out f v fs l : left_out f → shown lower fs l → shown lower ((f, v) :: fs) l
| sh_field f v fs n t l : ¬ left_out f → ¬ tag_option f "string" → field_name lower f n →
    mirrors lower false v t → shown lower fs l → shown lower ((f, v) :: fs) ((n, t) :: l)
| sh_string f v fs n s l : ¬ left_out f → tag_option f "string" → field_name lower f n →
    stringer v = Some (Ok s) → shown lower fs l → shown lower ((f, v) :: fs) ((n, TStr s) :: l)
| sh_no_string f v fs l : ¬ left_out f → tag_option f "string" → stringer v = None →
    shown lower fs l → shown lower ((f, v) :: fs) l.

(** [unsupported ifc v]: converting [v] meets a value ReflectValue refuses: a
    channel, function or complex number; but also an interface that is a struct field or
    pointed to (and not an error), and a uintptr that is of a named type, a struct field or
    pointed to. *)
Inductive unsupported : bool → gval → Prop :=
| un_other ifc d : t_err d = None → unsupported ifc (GOther d)
| un_iface_loc d o : t_err d = None → unsupported false (GIface d o)
| un_uintptr ifc d z : t_err d = None → ifc && t_exact d = false → unsupported ifc (GUintptr d z)
| un_iface d x : unsupported true x → unsupported true (GIface d (Some x))
| un_ptr ifc d x : t_err d = None → unsupported false x → unsupported ifc (GPtr d (Some x))
| un_slice ifc d items x : t_err d = None → x ∈ items → unsupported true x → unsupported ifc (GSlice d items)
| un_map ifc d kvs k x : t_err d = None → (k, x) ∈ kvs → unsupported true x → unsupported ifc (GMap d kvs)
| un_field ifc d fs f x : t_err d = None → (f, x) ∈ fs → ¬ left_out f → unsupported false x →
    unsupported ifc (GStruct d fs).

(** The documented class: [refused v]: a converted position holds a channel, function or
    complex number. *)
Inductive refused : gval → Prop :=
| re_other d : t_err d = None → refused (GOther d)
| re_iface d x : refused x → refused (GIface d (Some x))
| re_ptr d x : t_err d = None → refused x → refused (GPtr d (Some x))
| re_slice d items x : t_err d = None → x ∈ items → refused x → refused (GSlice d items)
| re_map d kvs k x : t_err d = None → (k, x) ∈ kvs → refused x → refused (GMap d kvs)
| re_field d fs f x : t_err d = None → (f, x) ∈ fs → ¬ left_out f → refused x → refused (GStruct d fs).

(** The same value with the entries of its maps visited in another order. *)
Inductive reordered : gval → gval → Prop :=
| ro_same v : reordered v v
| ro_slice d items items' : Forall2 reordered items items' → reordered (GSlice d items) (GSlice d items')
| ro_map d kvs kvs1 kvs' :
    Forall2 (λ kv kv', kv.1 = kv'.1 ∧ reordered kv.2 kv'.2) kvs kvs1 → Permutation kvs1 kvs' →
    reordered (GMap d kvs) (GMap d kvs')
| ro_ptr d x x' : reordered x x' → reordered (GPtr d (Some x)) (GPtr d (Some x'))
| ro_iface d x x' : reordered x x' → reordered (GIface d (Some x)) (GIface d (Some x'))
| ro_struct d fs fs' : Forall2 (λ fv fv', fv.1 = fv'.1 ∧ reordered fv.2 fv'.2) fs fs' →
    reordered (GStruct d fs) (GStruct d fs').
(** No map has two keys that print alike. *)
Definition distinct_keys (v : gval) : Prop := ∀ d kvs, part (GMap d kvs) v → NoDup (map fst kvs).
