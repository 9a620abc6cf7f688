(** Model of api/data/data.go: validation of values, and the errors it reports. *)
From Coq Require Import String.
From Verif Require Import GoBase GoText.
Local Open Scope Z_scope.
Local Open Scope list_scope.

(** A pointer with its type, as compared by ==. *)
Definition ptr := nat.
(** A field of a struct: its name, whether it is exported, and the pointer to it. *)
Record field := { fname : bytes; exported : bool; faddr : ptr }.
(** data.go:29-35, 119-123, 158-234: the errors; [name] is that of the field, empty if it is not known. An
    error of any other type has a message alone. Errors are pointers that are changed in place: here each
    place that holds one has its own. The path (index) is not modelled: FieldName drops it. *)
Inductive error :=
| EInvalid (at_ : ptr) (name class hints : bytes)
| EExceeds (at_ : ptr) (name limit : bytes)
| EMissing (at_ : ptr) (name : bytes)
| EReport (at_ : ptr) (name : bytes) (errs : list error)
| EOther (msg : bytes).
Definition is_setter (e : error) : bool := match e with EOther _ => false | _ => true end.
(** data.go:39-54 and 127-132 [reflect], for one field; [None]: a panic. The pointer of an unexported field
    can't be an interface, and the rvalue of a report is never set. *)
Definition reflect (e : error) (f : field) : option error :=
  match e with
  | EOther _ => Some e
  | _ =>
    if negb (exported f) then None
    else match e with
    | EInvalid a n c h => Some (EInvalid a (if Nat.eqb (faddr f) a then fname f else n) c h)
    | EExceeds a n l => Some (EExceeds a (if Nat.eqb (faddr f) a then fname f else n) l)
    | EMissing a n => Some (EMissing a (if Nat.eqb (faddr f) a then fname f else n))
    | EReport a n es => if Nat.eqb (faddr f) a then if existsb is_setter es then None else Some (EReport a (fname f) es) else Some e
    | EOther _ => Some e
    end
  end.
Fixpoint reflect_all (e : error) (fs : list field) : option error :=
  match fs with [] => Some e | f :: r => match reflect e f with Some e => reflect_all e r | None => None end end.
(** data.go:70-98 [Object]: Reports of the object at [a]; [fs]: its fields, if it is a struct. *)
Fixpoint group (fs : option (list field)) (errs : list (option error)) : option (list error) :=
  match errs with
  | [] => Some []
  | None :: r => group fs r
  | Some e :: r =>
    match match fs with Some fs => reflect_all e fs | None => Some e end with
    | None => None
    | Some e => match group fs r with Some g => Some (e :: g) | None => None end
    end
  end.
Definition reports (a : ptr) (fs : option (list field)) (errs : list (option error)) : option (option error) :=
  match group fs errs with
  | None => None
  | Some [] => Some None
  | Some (e :: g) => Some (Some (EReport a [] (e :: g)))
  end.
(** data.go:56-68: the messages of a report. *)
Fixpoint sentence (first : bool) (msgs : list bytes) : bytes :=
  match msgs with
  | [] => []
  | m :: r => (if first then [] else match r with [] => text " and " | _ :: _ => text ", " end) ++ m ++ sentence false r
  end.
Definition quoted (s : bytes) : bytes := text "'" ++ s ++ text "'".
Fixpoint message (e : error) : bytes :=
  match e with
  | EInvalid _ n c h =>
    if beq n [] then text "please ensure that all " ++ quoted c ++ text " parameters are valid" ++ [10] ++ text "(" ++ h ++ text ")"
    else text "please ensure " ++ quoted n ++ text " is valid" ++ [10] ++ text "(" ++ c ++ text ": " ++ h ++ text ")"
  | EExceeds _ n l => if beq n [] then text "please ensure that all parameters do not exceed their limits" else text "please limit " ++ quoted n ++ text " to less than " ++ l
  | EMissing _ n => if beq n [] then text "please provide all required parameters" else text "please provide " ++ quoted n
  | EReport _ _ es => sentence true (map message es)
  | EOther m => m
  end.
(** StatusHTTP: data.go:125, 165, 190, 215; a report has that of mirror. [None]: no such method. *)
Definition status (e : error) : option Z := match e with EOther _ => None | _ => Some 400 end.
(** WithFieldNameSetTo, data.go:167-175, 192-199, 217-223 *)
Definition with_name (e : error) (n : bytes) : error :=
  match e with EInvalid a _ c h => EInvalid a n c h | EExceeds a _ l => EExceeds a n l | EMissing a _ => EMissing a n | e => e end.

(** ** Checks *)
Section Checks.
Variable decimal : nat -> bytes.
Variables (T : Type) (a : ptr).
(** strings.Join(hints, "\n") *)
Definition hints_text (h : list bytes) : bytes := join h 10.
(** Invalid: data.go:242-251, 275-284, 329-338, 385-394. *)
Definition invalid (class : bytes) (fn : T -> bool) (hints : list bytes) (v : T) : option error := if fn v then None else Some (EInvalid a [] class (hints_text hints)).
(** Exceeds: data.go:285-293 (a string, "bytes"), 347-355 and 395-403 ("items"). *)
Definition exceeds (unit : bytes) (length : nat) (limit : nat) : option error := if Nat.ltb limit length then Some (EExceeds a [] (decimal limit ++ [32] ++ unit)) else None.
(** Missing of strings, slices and maps: data.go:294-301, 356-363, 420-427; of numbers: 252-259. *)
Definition missing (length : nat) : option error := if Nat.eqb length 0 then Some (EMissing a []) else None.
Definition missing_number (v : Z) : option error := if v =? 0 then Some (EMissing a []) else None.
(** data.go:102-117 [Exists] and [Absent]; [None]: a nil pointer. *)
Definition exists_ (v : option T) (fn : T -> option error) : option error := match v with None => None | Some x => fn x end.
Definition absent (v : option T) : option error := match v with None => Some (EMissing a []) | Some _ => None end.
(** ForEach of a slice: data.go:339-346. The function can change the element it is given. *)
Fixpoint foreach (fn : T -> T * option error) (l : list T) : list T * option error :=
  match l with
  | [] => ([], None)
  | x :: r => let '(y, e) := fn x in match e with Some e => (y :: r, Some e) | None => let '(r, e) := foreach fn r in (y :: r, e) end
  end.
(** ForEach (and MapKeys) of a map: data.go:404-419, in some order [l]: the function is given a copy. *)
Fixpoint foreach_map (fn : T -> T * option error) (l : list T) : option error :=
  match l with [] => None | x :: r => match snd (fn x) with Some e => Some e | None => foreach_map fn r end end.
End Checks.
