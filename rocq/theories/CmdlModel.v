(** Model of api/cmdl: linking functions to command-line programs (link.go) and running a program's
    functions from the command line (main.go), and of api.ArgumentScanner (api/api.go:505-555). *)
From Coq Require Import String.
From Verif Require Import GoBase GoText.
From Verif Require JrpcModel.
Local Open Scope Z_scope.
Notation length := List.length.
Notation "a ++ b" := (app a b) : list_scope.

Definition percent := 37.
Definition space := 32.
Definition comma := 44.
Definition newline := 10.

(** ** Argument values *)
(** A field of a struct: its name, the value of its cmdl tag, whether it is exported and whether it is
    embedded. *)
Record cfield := { cname : bytes; ctag : bytes; cexported : bool; canonymous : bool }.
(** Values by reflect.Kind. [COther]: any kind that the code does not look at (floats, maps, arrays,
    interfaces, ...): what fmt.Sprint prints, and IsZero. [CMarshal]: a struct that implements
    encoding.TextMarshaler: its text or an error, and IsZero (its fields are left out of the model). *)
Inductive cval :=
| CStr (s : bytes)
| CBool (b : bool)
| CInt (z : Z)
| COther (printed : bytes) (zero : bool)
| CMarshal (out : option bytes) (zero : bool)
| CStruct (fs : list (cfield * cval))
| CSlice (l : option (list cval))
| CPtr (p : option cval).
(** reflect.Value.IsZero *)
Fixpoint is_zero (v : cval) : bool :=
  match v with
  | CStr s => match s with [] => true | _ => false end
  | CBool b => negb b
  | CInt z => z =? 0
  | COther _ z | CMarshal _ z => z
  | CStruct fs => forallb (fun f => is_zero (snd f)) fs
  | CSlice l => match l with None => true | _ => false end
  | CPtr p => match p with None => true | _ => false end
  end.

(** ** api/api.go:505-555 [ArgumentScanner] *)
(** [fmt.Sscanf(format, "%%[%d]v", &n)] on what follows "%[": an optional sign, digits, "]v". The
    blanks that Sscanf would skip cannot occur in a component. *)
Fixpoint digits (s : bytes) (acc : Z) (seen : bool) : option (Z * bytes) :=
  match s with
  | c :: r => if (48 <=? c) && (c <=? 57) then digits r (acc * 10 + (c - 48)) true else if seen then Some (acc, s) else None
  | [] => if seen then Some (acc, s) else None
  end.
Definition sscanf_index (s : bytes) : option Z :=
  let '(sign, s) := match s with 45 :: r => (-1, r) | 43 :: r => (1, r) | _ => (1, s) end in
  match digits s 0 false with
  | Some (n, r) => if has_prefix r (text "]v") then Some (sign * n) else None
  | None => None
  end.
(** The first field of that name in the arguments that are structs (api.go:538-547). *)
Fixpoint find_field (fs : list (cfield * cval)) (name : bytes) : option cval :=
  match fs with [] => None | (f, v) :: r => if beq (cname f) name then Some v else find_field r name end.
Fixpoint find_named (args : list cval) (name : bytes) : option cval :=
  match args with
  | [] => None
  | CStruct fs :: r => match find_field fs name with Some v => Some v | None => find_named r name end
  | _ :: r => find_named r name
  end.
(** api.go:520-555 [Scan]: which argument, as the position of the scanner moves. [None]: an error. *)
Inductive where_ := At (i : nat) | Named (name : bytes).
Definition scan_where (nargs : nat) (n : nat) (format : bytes) : option (where_ * nat) :=
  if beq format [] then None
  else if beq format (text "%v") then
    if Nat.ltb n nargs then Some (At n, S n) else None
  else if has_prefix format (text "%[") && has_suffix format (text "]v") then
    match sscanf_index (skipn 2 format) with
    | None => None
    | Some k => if k <? 1 then None
                else if Z.of_nat nargs <? Z.of_nat n + k then None
                else Some (At (n + Z.to_nat k - 1), n)
    end
  else Some (Named format, n).
Definition scan (args : list cval) (n : nat) (format : bytes) : option (cval * nat) :=
  match scan_where (length args) n format with
  | None => None
  | Some (At i, n') => match nth_error args i with Some v => Some (v, n') | None => None end
  | Some (Named name, n') => match find_named args name with Some v => Some (v, n') | None => None end
  end.

(** ** link.go: the command line of a linked function *)
Section Link.
  (** fmt.Sprint of a struct, slice or pointer, and fmt.Sprintf with anything but a single %v. *)
  Context (sprint_other : cval -> bytes) (sprintf_other : bytes -> cval -> bytes).
  Definition sprint (v : cval) : bytes :=
    match v with
    | CStr s => s
    | CBool b => if b then text "true" else text "false"
    | CInt z => JrpcModel.int_text z
    | COther p _ => p
    | v => sprint_other v
    end.
  (** fmt.Sprintf of a format with a single %v and of any other. *)
  Definition sprintf (part : bytes) (v : cval) : bytes :=
    let '(pre, post, found) := cut part percent in
    match post with
    | 118 :: post' => if found && negb (member percent post') then pre ++ sprint v ++ post' else sprintf_other part v
    | _ => sprintf_other part v
    end.
  (** link.go:22-26 [cmdInput] *)
  Record input := { iargs : list bytes; ienv : list bytes; iwd : bytes }.
  Definition add_arg (i : input) (a : bytes) : input := {| iargs := iargs i ++ [a]; ienv := ienv i; iwd := iwd i |}.
  Definition add_env (i : input) (e : bytes) : input := {| iargs := iargs i; ienv := ienv i ++ [e]; iwd := iwd i |}.
  Definition set_wd (i : input) (d : bytes) : input := {| iargs := iargs i; ienv := ienv i; iwd := d |}.
  Definition is_bool (v : cval) : bool := match v with CBool _ => true | _ => false end.
  Definition is_struct (v : cval) : bool := match v with CStruct _ | CMarshal _ _ => true | _ => false end.
  (** link.go:73-80: the parts of a tag. *)
  Definition add_parts (i : input) (exec : bytes) (v : cval) : input :=
    fold_left (fun i part => if member percent part then add_arg i (sprintf part v) else add_arg i part) (split exec space) i.
  (** link.go:50-81: one field that is not embedded. *)
  Definition add_field (i : input) (exec : bytes) (v : cval) : input :=
    if beq exec (text "-") then i
    else if (contains exec (text ",omitempty") || contains exec (text ",omitzero") || (negb (contains exec (text "%v")) && is_bool v)) && is_zero v then i
    else if contains exec (text ",env") then add_env i (fst (fst (cut exec comma)) ++ 61 :: sprint v)
    else if contains exec (text ",dir") then set_wd i (sprint v)
    else add_parts i (fst (fst (cut exec comma))) v.
  (** link.go:28-98 [add]; [None] is an error (of MarshalText). *)
  Fixpoint add (i : input) (v : cval) {struct v} : option input :=
    match v with
    | CMarshal out _ => match out with Some s => Some (add_arg i s) | None => None end
    | CStruct fs =>
        (fix fields (i : input) (fs : list (cfield * cval)) : option input :=
           match fs with
           | [] => Some i
           | (f, v) :: r =>
             if negb (cexported f) then fields i r
             else if canonymous f && is_struct v then
               match add i v with Some i' => fields i' r | None => None end
             else fields (add_field i (ctag f) v) r
           end) i fs
    | CSlice None => Some i
    | CSlice (Some l) =>
        (fix elems (i : input) (l : list cval) : option input :=
           match l with
           | [] => Some i
           | v :: r => match add i v with Some i' => elems i' r | None => None end
           end) i l
    | CPtr p => match p with Some v => add i v | None => Some i end
    | v => Some (add_arg i (sprint v))
    end.
  (** link.go:129-146: the components of the tag. *)
  Fixpoint components (cs : list bytes) (args : list cval) (n : nat) (i : input) : option input :=
    match cs with
    | [] => Some i
    | c :: r =>
      if has_prefix c (text "%") || has_prefix c (text "{") then
        match scan args n (trim c (text "{}")) with
        | None => None
        | Some (v, n') => match add i v with None => None | Some i' => components r args n' i' end
        end
      else components r args n (add_arg i c)
    end.
  (** link.go:114-126: the program, the rest of the tag and whether the output is JSON; [prefix] is the
      tag of the namespace. *)
  Definition command (cmd prefix tag : bytes) : bytes * bytes * bool :=
    let prefix := match prefix with [] => [] | p => p ++ [space] end in
    let tag := prefix ++ tag in
    let '(cmd, tag) := match cmd with [] => let '(c, t, _) := cut tag space in (c, t) | _ => (cmd, tag) end in
    if has_suffix tag (text " | json") then (cmd, trim_suffix tag (text " | json"), true) else (cmd, tag, false).
  (** link.go:127-161: what is run: the program, its arguments, the variables added to the
      environment and the directory. *)
  Definition nothing : input := {| iargs := []; ienv := []; iwd := [] |}.
  Definition started (cmd prefix tag : bytes) (args : list cval) : option (bytes * input) :=
    let '(cmd, tag, _) := command cmd prefix tag in
    match tag with
    | [] => Some (cmd, nothing)
    | _ => match components (split tag space) args 0 nothing with Some i => Some (cmd, i) | None => None end
    end.
End Link.
(** link.go:100-112 [linkStructure]: the functions of a structure with the prefix each is linked
    with. Inside a namespace the prefix is that of the innermost namespace. *)
Inductive structure := Structure (tag : bytes) (functions : list bytes) (sections : list structure).
Fixpoint link_structure (prefix : bytes) (s : structure) : list (bytes * bytes) :=
  match s with Structure _ fns secs =>
    map (fun f => (prefix, f)) fns ++
    flat_map (fun sec => link_structure (match sec with Structure t _ _ => t end) sec) secs
  end.

(** ** link.go:263-303: the results, from what was read of the standard output *)
Definition result_string (out : bytes) : bytes := trim_suffix out [newline].
(** The lines; a rest without a newline is dropped when ReadString gives io.EOF (link.go:276-288). *)
Fixpoint result_lines (out line : bytes) : list bytes :=
  match out with
  | [] => []
  | c :: r => if c =? newline then line :: result_lines r [] else result_lines r (line ++ [c])
  end.
Definition result_slice (out : bytes) : list bytes := result_lines out [].
(** strconv.Atoi and SetInt on an int32. *)
Definition atoi (s : bytes) : option Z :=
  let '(sign, s) := match s with 45 :: r => (-1, r) | 43 :: r => (1, r) | _ => (1, s) end in
  match digits s 0 false with
  | Some (n, []) => let z := sign * n in if (- 2 ^ 63 <=? z) && (z <? 2 ^ 63) then Some z else None
  | _ => None
  end.
Definition result_int32 (out : bytes) : option Z :=
  match atoi (trim_suffix out [newline]) with Some z => Some (i32 z) | None => None end.

(** ** link.go:148-158, 193-197, 252: how the output gets here *)
(** The program writes to a pipe; a goroutine (io.Copy) moves what is in the pipe to the buffer; the
    call goes on as soon as the program has ended, and then looks at the buffer. [todo]: what the
    program has still to write. *)
Record pipe_state := { todo : bytes; in_pipe : bytes; buffer : bytes; ended : bool; seen : option bytes }.
Inductive pipe_step : pipe_state -> pipe_state -> Prop :=
| program_writes a r p b e s : a <> [] ->
    pipe_step {| todo := a ++ r; in_pipe := p; buffer := b; ended := e; seen := s |}
              {| todo := r; in_pipe := p ++ a; buffer := b; ended := e; seen := s |}
| goroutine_copies t a r b e s : a <> [] ->
    pipe_step {| todo := t; in_pipe := a ++ r; buffer := b; ended := e; seen := s |}
              {| todo := t; in_pipe := r; buffer := b ++ a; ended := e; seen := s |}
| program_ends p b s :
    pipe_step {| todo := []; in_pipe := p; buffer := b; ended := false; seen := s |}
              {| todo := []; in_pipe := p; buffer := b; ended := true; seen := s |}
| call_reads t p b :
    pipe_step {| todo := t; in_pipe := p; buffer := b; ended := true; seen := None |}
              {| todo := t; in_pipe := p; buffer := b; ended := true; seen := Some b |}.
Definition pipe_start (out : bytes) : pipe_state := {| todo := out; in_pipe := []; buffer := []; ended := false; seen := None |}.
Inductive pipe_run : pipe_state -> pipe_state -> Prop :=
| pipe_done s : pipe_run s s
| pipe_more s t u : pipe_step s t -> pipe_run t u -> pipe_run s u.

(** ** main.go: options *)
(** A field of an options struct: its tag and its kind. Structs within options are left out. Pointers,
    numbers and TextUnmarshalers are [KOther]. *)
Inductive okind := KBool | KString | KOther.
Record ofield := { otag : bytes; okind_of : okind }.
Inductive oval := OBool (b : bool) | OStr (s : bytes) | OOther (v : option Z).
Definition ozero (k : okind) : oval := match k with KBool => OBool false | KString => OStr [] | KOther => OOther None end.
Fixpoint set_val {A} (i : nat) (x : A) (l : list A) {struct l} : list A :=
  match l with [] => [] | y :: r => match i with O => x :: r | S j => y :: set_val j x r end end.
Section Options.
  (** fmt.Sscanf of a bool, and of (or UnmarshalText for) the other kinds: format and text. *)
  Context (sscan_bool : bytes -> bytes -> option bool) (sscan_other : bytes -> bytes -> option Z).
  Record pass := { arg : bytes; tracker : nat; extra : nat; consuming : bool; vals : list oval }.
  (** main.go:95-176: one field, for the current argument. [None]: an error. *)
  Definition try_field (args : list bytes) (i : nat) (f : ofield) (p : pass) : option pass :=
    let '(name, opts, _) := cut (otag f) comma in
    let matches := beq (arg p) name in
    let '(prefix, format, _) := cut name percent in
    let has_format := member percent name in
    let matches := if has_format then matches || has_prefix (arg p) prefix else matches in
    (* main.go:109-120 *)
    match (if has_format then
             if has_suffix prefix (text "=") then
               Some {| arg := trim_prefix (arg p) prefix; tracker := tracker p; extra := extra p; consuming := consuming p; vals := vals p |}
             else if has_suffix prefix (text " ") then
               match nth_error args (S (tracker p)) with
               | None => None
               | Some a => Some {| arg := a; tracker := S (tracker p); extra := S (extra p); consuming := true; vals := vals p |}
               end
             else Some p
           else Some p) with
    | None => None
    | Some p =>
      if negb matches then Some p
      else match okind_of f with
      | KBool =>
        match (if has_format then sscan_bool (percent :: format) (arg p) else Some matches) with
        | None => None
        | Some val =>
          let set := if contains opts (text "invert") then negb val else val in
          Some {| arg := arg p; tracker := if val then S (tracker p) else tracker p; extra := if val then S (extra p) else extra p;
                  consuming := if val then true else consuming p; vals := set_val i (OBool set) (vals p) |}
        end
      | KString => Some {| arg := arg p; tracker := tracker p; extra := extra p; consuming := consuming p; vals := set_val i (OStr (arg p)) (vals p) |}
      | KOther =>
        match sscan_other (if has_format then percent :: format else []) (arg p) with
        | None => None
        | Some z => Some {| arg := arg p; tracker := tracker p; extra := extra p; consuming := consuming p; vals := set_val i (OOther (Some z)) (vals p) |}
        end
      end
    end.
  Fixpoint try_fields (args : list bytes) (i : nat) (fs : list ofield) (p : pass) : option pass :=
    match fs with
    | [] => Some p
    | f :: r => match try_field args i f p with None => None | Some p' => try_fields args (S i) r p' end
    end.
  (** main.go:92-181: the loop over the arguments. Every round but the last moves the tracker, so the
      number of arguments is enough fuel; [Panic] is the index out of range of line 93. *)
  Fixpoint consume_loop (fuel : nat) (args : list bytes) (fs : list ofield) (t x : nat) (vs : list oval) : outcome (option (nat * list oval)) :=
    match fuel with
    | O => Ok (Some (x, vs))
    | S fuel' =>
      match nth_error args t with
      | None => Panic
      | Some a =>
        match try_fields args 0 fs {| arg := a; tracker := t; extra := x; consuming := false; vals := vs |} with
        | None => Ok None
        | Some p => if Nat.leb (length args) (tracker p) then Ok (Some (extra p, vals p))
                    else if consuming p then consume_loop fuel' args fs (tracker p) (extra p) (vals p)
                    else Ok (Some (extra p, vals p))
        end
      end
    end.
  (** main.go:82-91: the starting values, and whether any field has a tag. *)
  Definition start_val (f : ofield) : oval :=
    match okind_of f with
    | KBool => OBool (contains (otag f) (text ",invert"))
    | k => ozero k
    end.
  Definition has_cmdl (fs : list ofield) : bool := existsb (fun f => negb (beq (otag f) [])) fs.
  Definition consume (args : list bytes) (fs : list ofield) (t : nat) : outcome (option (nat * list oval)) :=
    consume_loop (S (length args)) args fs t 0 (map start_val fs).

  (** ** main.go:184-289 [Run] up to the call *)
  (** Parameters: a string, an options struct with at least one cmdl tag, a final ...string, anything
      else that is scanned. *)
  Inductive param := PString | POptions (fs : list ofield) | PRest | POther.
  Inductive pval := VString (s : bytes) | VOptions (vs : list oval) | VRest (l : list bytes) | VOther (z : option Z).
  Definition pzero (p : param) : pval :=
    match p with PString => VString [] | POptions fs => VOptions (map (fun f => ozero (okind_of f)) fs) | PRest => VRest [] | POther => VOther None end.
  (** main.go:206-275: the components. [Ok None]: an error. *)
  Fixpoint read_args (cs : list bytes) (args : list bytes) (ps : list param) (n t : nat) (vs : list pval) : outcome (option (list pval)) :=
    match cs with
    | [] => Ok (Some vs)
    | c :: r =>
      (* tracker++ and the test at the end of a round: main.go:271-274 *)
      let next t' n' vs' := if Nat.leb (length args) (S t') then Ok (Some vs') else read_args r args ps n' (S t') vs' in
      if has_prefix c (text "%") then
        match scan_where (length ps) n c with
        | None | Some (Named _, _) => Ok None
        | Some (At i, n') =>
          match nth_error args t, nth_error ps i with
          | None, _ => Panic
          | _, None => Ok None
          | Some a, Some PString => next t n' (set_val i (VString a) vs)
          | Some a, Some PRest => next t n' (set_val i (VRest (skipn t args)) vs)
          | Some a, Some POther =>
            match sscan_other c a with None => Ok None | Some z => next t n' (set_val i (VOther (Some z)) vs) end
          | Some a, Some (POptions fs) =>
            match consume args fs t with
            | Panic => Panic
            | Ok None => Ok None
            | Ok (Some (count, ovs)) =>
              let t' := (t + count)%nat in
              if Nat.leb (length args) t' then next t' n' (set_val i (VOptions ovs) vs)
              else read_args r args ps n' t' (set_val i (VOptions ovs) vs)
            end
          end
        end
      else next t n vs
    end.
  (** main.go:314-354 [match]: the score of a tag (split at spaces) for the arguments after the program
      name. *)
  Fixpoint score (cs : list bytes) (args : list bytes) : nat :=
    match cs with
    | [] => 0
    | c :: r =>
      if has_prefix c (text "%") then S (score r (tl args))
      else match args with
           | a :: as_ => if beq c a then S (S (score r as_)) else 0
           | [] => 0
           end
    end%nat.
  (** The first tag with the highest score; none when all scores are 0. *)
  Fixpoint best (tags : list bytes) (args : list bytes) (i : nat) (sofar : option nat) (high : nat) : option nat :=
    match tags with
    | [] => sofar
    | t :: r => let s := score (split t space) args in
                if Nat.ltb high s then best r args (S i) (Some i) s else best r args (S i) sofar high
    end.
  (** [args]: os.Args. *)
  Definition match_tags (tags : list bytes) (args : list bytes) : option nat :=
    if Nat.eqb (length args) 1 then None else best tags (tl args) 0 None 0.
  (** main.go:184-289: which function is called with what; [Ok None]: an error (or only the help). *)
  Record fn := { ftag : bytes; fparams : list param }.
  Definition run (fns : list fn) (args : list bytes) : outcome (option (nat * list pval)) :=
    match match_tags (map ftag fns) args with
    | None => Ok None
    | Some i =>
      match nth_error fns i with
      | None => Ok None
      | Some f =>
        match read_args (split (fst (fst (cut (ftag f) comma))) space) args (fparams f) 0 1 (map pzero (fparams f)) with
        | Panic => Panic
        | Ok None => Ok None
        | Ok (Some vs) => Ok (Some (i, vs))
        end
      end
    end.
End Options.
