(** Model of package xyz: duplex numbers (xyz/duplex.go), switch types (xyz/switch.go),
    tagged unions (xyz/tagged.go), tuples (xyz/tuples.go) and optional values (xyz/xyz.go).

    Simplifications, common to all parts: encoding/json is modelled on JSON values (trees),
    not on text; what it does with a payload type of the user is a parameter. Strings are
    byte lists. Text marshalling of floats and the scanning functions of package fmt on
    anything but plain decimals and words are parameters. *)
From Verif Require Import GoBase.

(** ** Duplex numbers *)
Section Duplex.
Context {T : Type}.
Variable add sub : T -> T -> T.
(** duplex.go:33-40: the closure [branch]; the rest of the slice instead of the index *)
Fixpoint branch (d : list T) (val : T) (values : list T) : list T :=
  match d with
  | [] => values ++ [val]
  | x :: r => branch r (sub val x) (branch r (add val x) values)
  end.
(** duplex.go:31-44 [Values]; d[0] panics on an empty slice *)
Definition duplex_values (d : list T) : outcome (list T) :=
  match d with
  | [] => Panic
  | x :: r => Ok (branch r x [])
  end.
End Duplex.

(** ** JSON values *)
Definition str := bytes.
Fixpoint str_eqb (a b : str) : bool :=
  match a, b with
  | [], [] => true
  | x :: a', y :: b' => (x =? y) && str_eqb a' b'
  | _, _ => false
  end.
(** A number is its text. *)
Inductive json :=
| JNull | JBool (b : bool) | JNum (text : str) | JStr (s : str) | JArr (l : list json)
| JObj (m : list (str * json)).

(** ** Switch types *)
(** The storage kinds of [switchable], switch.go:35-37 (uintptr is apart from the other
    unsigned types, as in the code). Floats hold an integer or something else. *)
Inductive skind := SBool | SInt (w : Z) | SUint (w : Z) | SUintptr | SString | SFloat.
Inductive sval := SVBool (b : bool) | SVInt (z : Z) | SVStr (s : str) | SVFloat (z : Z) | SVOther (n : Z).
(** A field of the values struct: its name and its json tag, if there is one. *)
Definition sfield := (str * option str)%type.
(** switch.go:85-88 and its copies *)
Definition sname (f : sfield) : str := match snd f with Some t => t | None => fst f end.
(** switch.go:90-121 and its copies in UnmarshalText and Values: the i-th value (false:
    no case of the type switch applies, nothing is stored) *)
Definition store_index (k : skind) (i : nat) (old : sval) : sval :=
  match k with
  | SBool => SVBool (negb (Nat.eqb i 0))
  | SInt w => SVInt (sgn w (Z.of_nat i))
  | SUint w => SVInt (Z.of_nat i mod 2 ^ w)
  | SFloat => SVFloat (Z.of_nat i)
  | SUintptr | SString => old
  end.
(** the zero value of the storage *)
Definition szero (k : skind) : sval :=
  match k with SBool => SVBool false | SString => SVStr [] | SFloat => SVFloat 0 | _ => SVInt 0 end.
(** switch.go:217-269 [Values] *)
Fixpoint svalues_from (k : skind) (i : nat) (fs : list sfield) : list sval :=
  match fs with
  | [] => []
  | f :: r =>
    (match k with SString => SVStr (sname f) | _ => store_index k i (szero k) end) :: svalues_from k (S i) r
  end.
Definition svalues (k : skind) (fs : list sfield) : list sval := svalues_from k 0 fs.

(** decimal text, fmt.Sprint of integers *)
Fixpoint ddigits (fuel : nat) (n : Z) (acc : str) : str :=
  match fuel with
  | O => acc
  | S f => let acc' := (48 + n mod 10) :: acc in if n <? 10 then acc' else ddigits f (n / 10) acc'
  end.
Definition decimal (n : Z) : str := if n <? 0 then 45 :: ddigits 20 (- n) [] else ddigits 20 n [].
Definition true_text : str := [116; 114; 117; 101].
Definition false_text : str := [102; 97; 108; 115; 101].
Section Switch.
Variable float_text : sval -> str.          (* fmt.Sprint of a float *)
(** fmt.Sprint *)
Definition sprint (v : sval) : str :=
  match v with
  | SVBool true => true_text | SVBool false => false_text
  | SVInt z => decimal z | SVStr s => s | _ => float_text v
  end.
(** switch.go:141-166: does the i-th field name the value? Uintptr is not listed *)
Definition matches (k : skind) (v : sval) (i : nat) (name : str) : bool :=
  match k, v with
  | SString, SVStr s => str_eqb s name
  | SInt _, SVInt z | SUint _, SVInt z | SFloat, SVFloat z => z =? Z.of_nat i
  | SBool, SVBool b => Bool.eqb b (negb (Nat.eqb i 0))
  | _, _ => false
  end.
(** switch.go:131-170 [MarshalText] *)
Fixpoint marshal_text_from (k : skind) (v : sval) (i : nat) (fs : list sfield) : str :=
  match fs with
  | [] => sprint v
  | f :: r => if matches k v i (sname f) then sname f else marshal_text_from k v (S i) r
  end.
Definition marshal_text (k : skind) (fs : list sfield) (v : sval) : str := marshal_text_from k v 0 fs.

(** The first field with the given name *)
Fixpoint find_name (s : str) (i : nat) (fs : list sfield) : option nat :=
  match fs with
  | [] => None
  | f :: r => if str_eqb s (sname f) then Some i else find_name s (S i) r
  end.

(** fmt.Sscan: white space *)
Definition fmt_space (c : Z) : bool := ((9 <=? c) && (c <=? 13)) || (c =? 32).
Fixpoint drop_space (s : str) : str :=
  match s with c :: r => if fmt_space c then drop_space r else s | [] => [] end.
Fixpoint word (s : str) : str :=
  match s with c :: r => if fmt_space c then [] else c :: word r | [] => [] end.
Definition isdig (c : Z) : bool := (48 <=? c) && (c <=? 57).
Fixpoint dvalue (acc : Z) (s : str) : Z := match s with [] => acc | c :: r => dvalue (acc * 10 + (c - 48)) r end.
(** a decimal without leading zero: its value *)
Definition plain_nat (s : str) : option Z :=
  match s with
  | [48] => Some 0
  | c :: _ => if negb (c =? 48) && forallb isdig s then Some (dvalue 0 s) else None
  | [] => None
  end.
Definition plain_int (s : str) : option Z :=
  match s with
  | 45 :: r => match plain_nat r with Some n => Some (- n) | None => None end
  | _ => plain_nat s
  end.
(** fmt.Sscan of other texts (other bases, floats, booleans, several words): parameter *)
Variable other_scan : skind -> str -> option sval.
(** fmt.Sscan(string(data), &v.ram) for words of ASCII characters and for plain decimals *)
Definition sscan (k : skind) (s : str) : option sval :=
  match k with
  | SString => match word (drop_space s) with [] => None | w => Some (SVStr w) end
  | SInt w => match plain_int s with
              | Some z => if (- 2 ^ (w - 1) <=? z) && (z <? 2 ^ (w - 1)) then Some (SVInt z) else None
              | None => other_scan k s
              end
  | SUint w => match plain_nat s with
               | Some z => if z <? 2 ^ w then Some (SVInt z) else None
               | None => other_scan k s
               end
  | SUintptr => match plain_nat s with
               | Some z => if z <? 2 ^ 64 then Some (SVInt z) else None
               | None => other_scan k s
               end
  | _ => other_scan k s
  end.
(** switch.go:173-214 [UnmarshalText] into a value holding [old]; None is an error *)
Definition unmarshal_text (k : skind) (fs : list sfield) (old : sval) (s : str) : option sval :=
  let rest := match s with [] => Some old | _ => sscan k s end in
  match k with
  | SString => rest
  | _ => match find_name s 0 fs with Some i => Some (store_index k i old) | None => rest end
  end.
(** json.Marshal of a switch value: a string, since it has MarshalText and no MarshalJSON *)
Definition marshal_json (k : skind) (fs : list sfield) (v : sval) : json := JStr (marshal_text k fs v).
(** json.Unmarshal into the storage: a JSON string only fits a string; null changes nothing *)
Variable json_number : skind -> str -> option sval.
Definition json_storage (k : skind) (old : sval) (d : json) : option sval :=
  match d, k with
  | JNull, _ => Some old
  | JStr s, SString => Some (SVStr s)
  | JBool b, SBool => Some (SVBool b)
  | JNum t, SInt w => match plain_int t with
              | Some z => if (- 2 ^ (w - 1) <=? z) && (z <? 2 ^ (w - 1)) then Some (SVInt z) else None
              | None => None
              end
  | JNum t, SUint w => match plain_nat t with Some z => if z <? 2 ^ w then Some (SVInt z) else None | None => None end
  | JNum t, SUintptr => match plain_nat t with Some z => if z <? 2 ^ 64 then Some (SVInt z) else None | None => None end
  | JNum t, SFloat => json_number k t
  | _, _ => None
  end.
(** switch.go:75-128 [UnmarshalJSON] *)
Definition unmarshal_json (k : skind) (fs : list sfield) (old : sval) (d : json) : option sval :=
  match d, k with
  | JStr s, SString => json_storage k old d
  | JStr s, _ => match find_name s 0 fs with Some i => Some (store_index k i old) | None => json_storage k old d end
  | _, _ => json_storage k old d
  end.
End Switch.

(** ** Tuples *)
(** What can be in a tuple: other values and tuples *)
Inductive tuple {V : Type} :=
| Leaf (v : V) | Pair (x y : tuple) | Trio (x y z : tuple) | Quad (x y z w : tuple).
Arguments tuple : clear implicits.
(** tuples.go:48-52, 102-107, 151-157 [expand] and 161-167 [push] *)
Fixpoint push {V} (t : list V) (v : tuple V) : list V :=
  match v with
  | Leaf v => t ++ [v]
  | Pair x y => push (push t x) y
  | Trio x y z => push (push (push t x) y) z
  | Quad x y z w => push (push (push (push t x) y) z) w
  end.
(** tuples.go:174-178 *)
Definition expand {V} (v : tuple V) : list V := push [] v.

(** json.Unmarshal into [n]json.RawMessage: None is an error. Missing elements stay empty (the inner
    None), extra ones are dropped, null changes nothing. *)
Fixpoint raw_elems (n : nat) (l : list json) : list (option json) :=
  match n with
  | O => []
  | S n' => match l with [] => None :: raw_elems n' [] | x :: r => Some x :: raw_elems n' r end
  end.
Definition raw_array (n : nat) (d : json) : option (list (option json)) :=
  match d with
  | JNull => Some (raw_elems n [])
  | JArr l => Some (raw_elems n l)
  | _ => None
  end.
Section Tuples.
Context {X Y Z W : Type}.
(** json.Marshal and json.Unmarshal (into an old value) of the components *)
Variables (mx : X -> json) (my : Y -> json) (mz : Z -> json) (mw : W -> json).
Variables (ux : X -> json -> option X) (uy : Y -> json -> option Y) (uz : Z -> json -> option Z) (uw : W -> json -> option W).
(** json.Unmarshal of an empty message is an error *)
Definition comp {A} (u : A -> json -> option A) (old : A) (d : option json) : option A :=
  match d with Some d => u old d | None => None end.
(** tuples.go:31-33 *)
Definition pair_marshal (p : X * Y) : json := JArr [mx (fst p); my (snd p)].
(** tuples.go:35-46; None is an error (what it has stored by then is not modelled) *)
Definition pair_unmarshal (old : X * Y) (d : json) : option (X * Y) :=
  match raw_array 2 d with
  | Some [a; b] =>
    match comp ux (fst old) a with None => None | Some x =>
    match comp uy (snd old) b with None => None | Some y => Some (x, y) end end
  | _ => None
  end.
(** tuples.go:81-83 *)
Definition trio_marshal (p : X * Y * Z) : json := let '(x, y, z) := p in JArr [mx x; my y; mz z].
(** tuples.go:85-100 *)
Definition trio_unmarshal (old : X * Y * Z) (d : json) : option (X * Y * Z) :=
  let '(ox, oy, oz) := old in
  match raw_array 3 d with
  | Some [a; b; c] =>
    match comp ux ox a with None => None | Some x =>
    match comp uy oy b with None => None | Some y =>
    match comp uz oz c with None => None | Some z => Some (x, y, z) end end end
  | _ => None
  end.
(** tuples.go:127-129 *)
Definition quad_marshal (p : X * Y * Z * W) : json := let '(x, y, z, w) := p in JArr [mx x; my y; mz z; mw w].
(** tuples.go:131-149 *)
Definition quad_unmarshal (old : X * Y * Z * W) (d : json) : option (X * Y * Z * W) :=
  let '(ox, oy, oz, ow) := old in
  match raw_array 4 d with
  | Some [a; b; c; e] =>
    match comp ux ox a with None => None | Some x =>
    match comp uy oy b with None => None | Some y =>
    match comp uz oz c with None => None | Some z =>
    match comp uw ow e with None => None | Some w => Some (x, y, z, w) end end end end
  | _ => None
  end.
End Tuples.

(** ** Optional values *)
(** xyz.go:209: a Maybe is a map, so a variable holds nil or a reference; the heap gives the
    value stored under the only key. *)
Section Maybe.
Context {T : Type}.
Variable mt : T -> json.
Variable ut : json -> option T.            (* json.Unmarshal into a zero value *)
Record mheap := { mvars : nat -> option nat; mcells : nat -> option T; mnext : nat }.
Definition upd {A} (f : nat -> A) (i : nat) (a : A) : nat -> A := fun j => if Nat.eqb j i then a else f j.
Definition mheap0 : mheap := {| mvars := fun _ => None; mcells := fun _ => None; mnext := 0 |}.
(** xyz.go:217-221: x = New(v) *)
Definition maybe_new (h : mheap) (x : nat) (v : T) : mheap :=
  {| mvars := upd (mvars h) x (Some (mnext h)); mcells := upd (mcells h) (mnext h) (Some v); mnext := S (mnext h) |}.
(** xyz.go:225-228 *)
Definition maybe_get (h : mheap) (x : nat) : option T :=
  match mvars h x with None => None | Some r => mcells h r end.
(** x = y *)
Definition maybe_assign (h : mheap) (x y : nat) : mheap :=
  {| mvars := upd (mvars h) x (mvars h y); mcells := mcells h; mnext := mnext h |}.
(** clear of a map *)
Definition maybe_clear (h : mheap) (x : nat) : mheap :=
  match mvars h x with
  | None => h
  | Some r => {| mvars := mvars h; mcells := upd (mcells h) r None; mnext := mnext h |}
  end.
(** xyz.go:231-236 *)
Definition maybe_marshal (h : mheap) (x : nat) : json :=
  match maybe_get h x with Some v => mt v | None => JNull end.
(** xyz.go:239-255; the boolean says there was no error *)
Definition maybe_unmarshal (h : mheap) (x : nat) (d : json) : mheap * bool :=
  match d with
  | JNull => (maybe_clear h x, true)
  | _ =>
    match ut d with
    | None => (h, false)
    | Some v =>
      let h := maybe_clear h x in
      match mvars h x with
      | None => (maybe_new h x v, true)
      | Some r => ({| mvars := mvars h; mcells := upd (mcells h) r (Some v); mnext := mnext h |}, true)
      end
    end
  end.
End Maybe.
Arguments mheap : clear implicits.

(** ** Tagged unions *)
(** A payload type: an identity, its size, whether it holds pointers, whether its kind is
    string, whether it is an interface type. A payload is its memory image with its dynamic
    type; PNil is the nil interface. *)
Record ptype := { pid : Z; psize : Z; pptrs : bool; pstring : bool; piface : bool }.
Inductive pval := PNil | PVal (t : ptype) (img : bytes).
(** Storage kinds; [ptrs] as hasPointers says, tagged.go:695-718. KIface lists the identities
    of the types that implement the interface. *)
Inductive stype :=
| KBool | KInt (w : Z) | KUint (w : Z) | KFloat (w : Z) | KComplex (w : Z)
| KArray (size : Z) (ptrs : bool) | KString | KIface (impl : Z -> bool) | KSlice (elem : Z)
| KStruct (size : Z) (ptrs : bool) | KUnsafe | KOther (size : Z).
Inductive ram := RMem (b : bytes) | RStr (s : str) | RIface (v : pval) | RSlice (b : option bytes) | RPtr (v : option bytes).
(** hasPointers of the storage type *)
Definition st_ptrs (k : stype) : bool :=
  match k with
  | KBool | KInt _ | KUint _ | KFloat _ | KComplex _ => false
  | KArray n p | KStruct n p => negb (n =? 0) && p
  | _ => true
  end.
(** reflect.Type.Size *)
Definition st_size (k : stype) : Z :=
  match k with
  | KBool => 1 | KInt w | KUint w | KFloat w | KComplex w => w / 8
  | KArray n _ | KStruct n _ => n
  | KString | KIface _ => 16 | KSlice _ => 24 | KUnsafe => 8 | KOther n => n
  end.
Definition zeros (n : Z) : bytes := repeat 0 (Z.to_nat n).
(** the zero value of the storage *)
Definition ram0 (k : stype) : ram :=
  match k with
  | KString => RStr [] | KIface _ => RIface PNil | KSlice _ => RSlice None | KUnsafe => RPtr None
  | _ => RMem (zeros (st_size k))
  end.
(** hasPointers of a payload type *)
Definition p_ptrs (t : ptype) : bool := negb (psize t =? 0) && pptrs t.

(** A field of the values struct, as declared: name, txt tag, json tag ([] when absent), xyz
    tag, payload type (None: a field of the union type itself). *)
Record case := { cname : str; ctxt : option str; cjson : str; cxyz : option Z; ctype : option ptype }.
(** tagged.go:463-476 [accessor] without the reflection data; ids stand for addresses *)
Record accessor := { void : bool; fmts : bool; zero : bool; safe : bool; enum : Z; name : str;
                     text : str; json_tag : str; rtyp : option ptype }.
(** strings.Contains(text, "%") *)
Definition has_percent (s : str) : bool := existsb (fun c => c =? 37) s.
(** tagged.go:380-415: one turn of the loop in [accessors] *)
Definition make_accessor (k : stype) (i : nat) (c : case) : outcome accessor :=
  if Nat.ltb 255 i then Panic
  else
    let hasText := match ctxt c with Some _ => true | None => false end in
    let text := match ctxt c with Some t => t | None => [] end in
    if negb hasText && (match k with KString => true | _ => false end) then Panic
    else
      let s := match ctype c with
               | None => true
               | Some t =>
                 match k with
                 | KIface _ | KUnsafe | KString => true
                 | KSlice _ => negb (p_ptrs t) || ((psize t <=? st_size k) && negb (st_ptrs k) && negb (p_ptrs t))
                 | _ => (psize t <=? st_size k) && negb (st_ptrs k) && negb (p_ptrs t)
                 end
               end in
      Ok {| void := match ctype c with None => true | _ => false end;
            fmts := has_percent text;
            zero := hasText && (match text with [] => true | _ => false end);
            safe := s;
            enum := match cxyz c with Some e => e | None => Z.of_nat i end;
            name := cname c; text := text; json_tag := cjson c; rtyp := ctype c |}.
(** tagged.go:362-420 [accessors] *)
Fixpoint accessors_from (k : stype) (i : nat) (cs : list case) : outcome (list accessor) :=
  match cs with
  | [] => Ok []
  | c :: r =>
    let! a := make_accessor k i c in
    let! l := accessors_from k (S i) r in
    Ok (a :: l)
  end.
Definition accessors (k : stype) (cs : list case) : outcome (list accessor) := accessors_from k 0 cs.
(** tagged.go:429-446 [Values], as far as whether it panics *)
Definition values (k : stype) (cs : list case) : outcome (list accessor) :=
  let! l := accessors k cs in
  if forallb safe l then Ok l else Panic.

(** tagged.go:70-73: a union value; the tag is the index of the accessor *)
Record variant := { tag : option nat; ram_of : ram }.

(** [store bytes into the start of memory] *)
Definition overwrite (new old : bytes) : bytes := new ++ skipn (length new) old.
(** little-endian integers of n bytes *)
Fixpoint le_image (n : nat) (z : Z) : bytes :=
  match n with O => [] | S n' => z mod 256 :: le_image n' (z / 256) end.
Section Tagged.
(** memory image of a float or complex number with the given width and integer value *)
Variable float_image : Z -> Z -> bytes.
(** fmt.Sprintf(text, expand(val)...) and fmt.Sscanf(s, text, &v) *)
Variable sprintf : str -> pval -> str.
Variable sscanf : ptype -> str -> str -> bytes.
(** tagged.go:527-586 [as]: the new storage.  [NewAt(...).Set] without Elem panics (569, 571);
    SetPointer stores the address of a copy. *)
Definition as_ram (k : stype) (a : accessor) (old : ram) (val : pval) : outcome ram :=
  if negb (safe a) then Panic
  else
    let same := match val, rtyp a with PVal t _, Some r => pid t =? pid r | _, _ => false end in
    if negb (match k with KIface _ => true | _ => false end) && negb same then Panic
    else
      match k, old with
      | KBool, RMem m => Ok (if 0 <? enum a then RMem [1] else old)
      | KInt w, RMem _ | KUint w, RMem _ => Ok (RMem (le_image (Z.to_nat (w / 8)) (enum a)))
      | KFloat w, RMem _ | KComplex w, RMem _ => Ok (RMem (float_image w (enum a)))
      | KArray _ _, RMem m => match val with PVal _ img => Ok (RMem (overwrite img m)) | PNil => Panic end
      | KString, RStr _ => Ok (RStr (if fmts a then sprintf (text a) val else text a))
      | KIface impl, RIface _ =>
        match val with
        | PNil => Ok (RIface PNil)
        | PVal t _ => if impl (pid t) then Ok (RIface val) else Panic
        end
      | KUnsafe, RPtr _ => match val with PVal _ img => Ok (RPtr (Some img)) | PNil => Panic end
      | _, _ => Panic
      end.
(** tagged.go:655-659 [As] of case i *)
Definition as_ (k : stype) (l : list accessor) (i : nat) (val : pval) : outcome variant :=
  match nth_error l i with
  | None => Panic
  | Some a => let! r := as_ram k a (ram0 k) val in Ok {| tag := Some i; ram_of := r |}
  end.
(** tagged.go:500-525 [accessor.get]; None stands for the nil interface that a void case gives *)
Definition get (k : stype) (l : list accessor) (i : nat) (v : variant) : outcome pval :=
  match nth_error l i with
  | None => Panic
  | Some a =>
    if negb (safe a) then Panic
    else if negb (match tag v with Some j => Nat.eqb i j | None => false end) then Panic
    else
      match rtyp a with
      | None => Ok PNil
      | Some t =>
        match k, ram_of v with
        | KString, RStr s => Ok (PVal t (sscanf t s (text a)))
        | KUnsafe, RPtr (Some m) => Ok (PVal t (firstn (Z.to_nat (psize t)) m))
        | KIface _, RIface p => Ok p
        | KSlice _, RSlice (Some m) => Ok (PVal t (firstn (Z.to_nat (psize t)) m))
        | _, RMem m => Ok (PVal t (firstn (Z.to_nat (psize t)) m))
        | _, _ => Panic
        end
      end
  end.
(** tagged.go:685-687 [Get]: with the assertion to the payload type *)
Definition case_get (k : stype) (l : list accessor) (i : nat) (v : variant) : outcome pval :=
  let! p := get k l i v in
  match nth_error l i with
  | Some a =>
    match rtyp a, p with
    | Some t, PVal t' _ => if piface t || (pid t =? pid t') then Ok p else Panic
    | _, _ => Panic
    end
  | None => Panic
  end.

(** ** Pairs *)
(** strings.Cut at a character *)
Fixpoint cut (sep : Z) (s : str) : str * str * bool :=
  match s with
  | [] => ([], [], false)
  | c :: r => if c =? sep then ([], r, true) else let '(x, y, ok) := cut sep r in (c :: x, y, ok)
  end.
Definition is_text (a : accessor) : bool := negb (match text a with [] => true | _ => false end) || zero a.
(** tagged.go:104-126 [MarshalPair]; the inner None is an error. The nil tag panics. *)
Definition marshal_pair (k : stype) (l : list accessor) (v : variant) : outcome (option (str * ram)) :=
  match tag v with
  | None => Panic
  | Some i =>
    match nth_error l i with
    | None => Panic
    | Some a =>
      if is_text a then
        if fmts a then let! p := get k l i v in Ok (Some (sprintf (text a) p, ram0 k))
        else Ok (Some (text a, ram0 k))
      else
        match json_tag a with
        | [] => Ok None
        | j =>
          let base := fst (fst (cut 44 j)) in
          let base := match base with [] => name a | _ => base end in
          let '(nm, rule, _) := cut 63 base in
          let '(key, val, _) := cut 61 rule in
          match key, val with
          | _ :: _, _ :: _ => Ok (Some (val, ram_of v))
          | _, _ => Ok (Some (nm, ram_of v))
          end
        end
    end
  end.
(** tagged.go:132-160: does the accessor take the key? *)
Definition takes_key (a : accessor) (s : str) : bool :=
  (is_text a && str_eqb (text a) s) ||
  match json_tag a with
  | [] => false
  | j =>
    let base := fst (fst (cut 44 j)) in
    let base := match base with [] => name a | _ => base end in
    let '(nm, rule, _) := cut 63 base in
    let '(key, val, _) := cut 61 rule in
    (match key, val with _ :: _, _ :: _ => str_eqb val s | _, _ => false end) || str_eqb nm s
  end.
(** tagged.go:129-162 [UnmarshalPair]; None is an error *)
Fixpoint unmarshal_pair_from (i : nat) (l : list accessor) (p : str * ram) : option variant :=
  match l with
  | [] => None
  | a :: r => if takes_key a (fst p) then Some {| tag := Some i; ram_of := snd p |} else unmarshal_pair_from (S i) r p
  end.
Definition unmarshal_pair (l : list accessor) (p : str * ram) : option variant := unmarshal_pair_from 0 l p.
(** tagged.go:478-498 [accessor.key]; None is an error *)
Definition case_key (a : accessor) : option str :=
  if is_text a then Some (text a)
  else
    match json_tag a with
    | [] => None
    | j =>
      let base := fst (fst (cut 44 j)) in
      let base := match base with [] => name a | _ => base end in
      let '(nm, rule, _) := cut 63 base in
      let '(key, val, _) := cut 61 rule in
      match key, val with
      | _ :: _, _ :: _ => Some val
      | _, _ => Some nm
      end
    end.

(** ** JSON *)
(** strconv.Quote and the string encoding of json.Marshal, on ASCII; bytes from 128 on are
    taken for printable characters, which both leave alone (simplification) *)
Definition hexd (n : Z) : Z := if n <? 10 then 48 + n else 87 + n.
Definition go_escape (c : Z) : str :=
  if c =? 34 then [92; 34] else if c =? 92 then [92; 92]
  else if c =? 7 then [92; 97] else if c =? 8 then [92; 98] else if c =? 12 then [92; 102]
  else if c =? 10 then [92; 110] else if c =? 13 then [92; 114] else if c =? 9 then [92; 116]
  else if c =? 11 then [92; 118]
  else if (c <? 32) || (c =? 127) then [92; 120; hexd (c / 16); hexd (c mod 16)] else [c].
Definition json_escape (c : Z) : str :=
  if c =? 34 then [92; 34] else if c =? 92 then [92; 92]
  else if c =? 8 then [92; 98] else if c =? 12 then [92; 102]
  else if c =? 10 then [92; 110] else if c =? 13 then [92; 114] else if c =? 9 then [92; 116]
  else if (c <? 32) || (c =? 60) || (c =? 62) || (c =? 38)
       then [92; 117; 48; 48; hexd (c / 16); hexd (c mod 16)] else [c].
Definition go_quote (s : str) : str := 34 :: flat_map go_escape s ++ [34].
Definition json_quote (s : str) : str := 34 :: flat_map json_escape s ++ [34].
(** string(keyValue) == strconv.Quote(val): the text of the value, as json.Marshal writes it;
    a missing key gives the empty text *)
Definition quoted_as (d : option json) (val : str) : bool :=
  match d with Some (JStr s) => str_eqb (json_quote s) (go_quote val) | _ => false end.

(** map[string]any as an object: a later assignment replaces *)
Fixpoint assoc (k : str) (m : list (str * json)) : option json :=
  match m with [] => None | (k', v) :: r => if str_eqb k k' then Some v else assoc k r end.
(** json.Unmarshal keeps the last of several values of a key *)
Definition lookup (k : str) (m : list (str * json)) : option json := assoc k (rev m).

(** json.Marshal of a payload, json.Unmarshal of a payload type, and the latter from a JSON
    string through TextUnmarshaler or Sscan (tagged.go:232-258) *)
Variable pm0 : pval -> json.
Definition pm (p : pval) : json := match p with PNil => JNull | _ => pm0 p end.
Variable pu : ptype -> json -> option pval.
Variable pt : ptype -> json -> option pval.
(** json.Marshal of a struct that embeds the payload and has one more field (tagged.go:188-207);
    a payload that is not a struct is a field named UnionValue *)
Definition union_value : str := [85;110;105;111;110;86;97;108;117;101].
Definition merged (d : json) (key val : str) : json :=
  match d with
  | JObj m => JObj (filter (fun e => negb (str_eqb (fst e) key)) m ++ [(key, JStr val)])
  | d => JObj [(union_value, d); (key, JStr val)]
  end.
(** tagged.go:164-212 [MarshalJSON]; a value without case that holds raw JSON is not modelled *)
Definition marshal_union (k : stype) (l : list accessor) (v : variant) : outcome json :=
  match tag v with
  | None => Ok JNull
  | Some i =>
    match nth_error l i with
    | None => Panic
    | Some a =>
      if is_text a then
        if fmts a then let! p := get k l i v in Ok (JStr (sprintf (text a) p)) else Ok (JStr (text a))
      else
        let '(base, kind, _) := cut 44 (json_tag a) in
        if str_eqb kind [110; 117; 108; 108] then Ok JNull
        else
          let '(nm, rule, _) := cut 63 base in
          let '(key, val, hasConst) := cut 61 rule in
          match nm with
          | _ :: _ =>
            let! p := get k l i v in
            Ok (match key with
                | [] => JObj [(nm, pm p)]
                | _ => if str_eqb nm key then JObj [(key, JStr val)] else JObj [(nm, pm p); (key, JStr val)]
                end)
          | [] =>
            if hasConst then
              match rtyp a with
              | None => Panic
              | Some _ => let! p := get k l i v in Ok (merged (pm p) key val)
              end
            else let! p := get k l i v in Ok (pm p)
          end
    end
  end.
(** JNone: no case took the data *)
Inductive jres := JOk (v : variant) | JErr | JPanic | JNone.
(** tagged.go:215-221, 232-259: decode the payload and store it; [textual]: the closure was
    replaced by the one that reads strings. reflect.New of a nil type panics. *)
Definition decode_into (k : stype) (l : list accessor) (i : nat) (a : accessor) (old : ram) (textual : bool) (d : option json) : jres :=
  match rtyp a with
  | None => JPanic
  | Some t =>
    match d with
    | None => JErr
    | Some d =>
      match (if textual then pt t d else pu t d) with
      | None => JErr
      | Some p => match as_ram k a old p with Ok r => JOk {| tag := Some i; ram_of := r |} | Panic => JPanic end
      end
    end
  end.
(** the kinds, tagged.go:227-281 *)
Definition kstring : str := [115;116;114;105;110;103].
Definition knumber : str := [110;117;109;98;101;114].
Definition kobject : str := [111;98;106;101;99;116].
Definition karray : str := [97;114;114;97;121].
Definition knull : str := [110;117;108;108].
Definition t_string (a : accessor) : bool := match rtyp a with Some t => pstring t | None => false end.
(** what is done when no case takes the data (304-308) is not modelled *)
Fixpoint unmarshal_union_from (k : stype) (l0 : list accessor) (old : variant) (textual : bool) (i : nat) (l : list accessor) (d : json) : jres :=
  match l with
  | [] => JNone
  | a :: r =>
    let next := fun tx => unmarshal_union_from k l0 old tx (S i) r d in
    if is_text a then
      match d with
      | JStr s => if str_eqb (text a) s then JOk {| tag := Some i; ram_of := ram_of old |} else next textual
      | JNull => if str_eqb (text a) [] then JOk {| tag := Some i; ram_of := ram_of old |} else next textual
      | _ => JErr
      end
    else
      match json_tag a with
      | [] => next textual
      | j =>
        let '(base, kind, _) := cut 44 j in
        let '(nm, rule, hasKey) := cut 63 base in
        let '(key, val, hasConst) := cut 61 rule in
        let go := fun tx =>
          match base with
          | [] => decode_into k l0 i a (ram_of old) tx (Some d)
          | _ =>
            match d with
            | JObj _ | JNull =>
              let m := match d with JObj m => m | _ => [] end in
              match rule with
              | [] => match lookup nm m with Some x => decode_into k l0 i a (ram_of old) tx (Some x) | None => next tx end
              | _ =>
                let kv := lookup key m in
                if (hasKey && (match nm with [] => true | _ => false end)) || (negb hasConst && (match kv with Some _ => true | None => false end))
                then decode_into k l0 i a (ram_of old) tx (Some d)
                else if hasKey && hasConst && quoted_as kv val
                then decode_into k l0 i a (ram_of old) tx (lookup nm m)
                else next tx
              end
            | _ => JErr
            end
          end in
        if str_eqb kind kstring then
          if t_string a then (match d with JStr _ => go textual | _ => next textual end) else go true
        else if str_eqb kind knumber then (match d with JNum _ => go textual | _ => next textual end)
        else if str_eqb kind kobject then (match d with JObj _ => go textual | _ => next textual end)
        else if str_eqb kind karray then (match d with JArr _ => go textual | _ => next textual end)
        else if str_eqb kind knull then (match d with JNull => JOk {| tag := Some i; ram_of := ram_of old |} | _ => next textual end)
        else go textual
      end
  end.
(** tagged.go:214-309 [UnmarshalJSON] *)
Definition unmarshal_union (k : stype) (l : list accessor) (old : variant) (d : json) : jres :=
  unmarshal_union_from k l old false 0 l d.
End Tagged.

(** ** The cache of accessors *)
(** tagged.go:362-420 from several goroutines. A first call looks in the cache (366-373), builds
    a slice of new accessors (379-415) and stores it (416-418); these are separate steps. [Got s]: the call returned
    slice s. *)
Inductive cphase := CIdle | CMiss | CBuilt (s : nat) | CGot (s : nat).
Record cstate := { ccache : option nat; cfresh : nat; cthreads : nat -> cphase }.
Definition cinit : cstate := {| ccache := None; cfresh := 0; cthreads := fun _ => CIdle |}.
Inductive cstep : cstate -> cstate -> Prop :=
| CHit st t s : cthreads st t = CIdle -> ccache st = Some s ->
    cstep st {| ccache := ccache st; cfresh := cfresh st; cthreads := upd (cthreads st) t (CGot s) |}
| CLook st t : cthreads st t = CIdle -> ccache st = None ->
    cstep st {| ccache := None; cfresh := cfresh st; cthreads := upd (cthreads st) t CMiss |}
| CBuild st t : cthreads st t = CMiss ->
    cstep st {| ccache := ccache st; cfresh := S (cfresh st); cthreads := upd (cthreads st) t (CBuilt (cfresh st)) |}
| CStore st t s : cthreads st t = CBuilt s ->
    cstep st {| ccache := Some s; cfresh := cfresh st; cthreads := upd (cthreads st) t (CGot s) |}.
