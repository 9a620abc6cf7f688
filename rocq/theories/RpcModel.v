(** Model of package rpc (rpc/rpc.go).

    Simplifications: JSON is its syntax tree; encoding/json on the receivers and the conversion
    of invalid UTF-8 in strings are parameters; a registered function is its type and a number,
    and what it returns is recorded as a closure over what it was given. *)
From Verif Require Import GoBase.

Definition str := bytes.
Definition str_dec : forall a b : str, {a = b} + {a <> b} := list_eq_dec Z.eq_dec.
(** Go types: those of kind string, the empty interface, functions, all others *)
Inductive gty := GStr (id : Z) | GAny | GOther (id : Z) | GFunc (ins outs : list gty).
Fixpoint gty_eqb (a b : gty) {struct a} : bool :=
  let all := fix all (l m : list gty) : bool :=
    match l, m with
    | [], [] => true
    | x :: l, y :: m => gty_eqb x y && all l m
    | _, _ => false
    end in
  match a, b with
  | GStr x, GStr y | GOther x, GOther y => x =? y
  | GAny, GAny => true
  | GFunc i o, GFunc i' o' => all i i' && all o o'
  | _, _ => false
  end.
(** A value that is registered: its type and which one it is *)
Record rval := { vty : gty; vid : Z }.
(** rpc.go:66-69 [Transport] *)
Record transport := { values : gty -> option rval; byname : str -> option gty }.
(** rpc.go:71-77: the global registry *)
Definition registry := gty -> list (str * gty).
(** rpc.go:81-84 [New] without arguments *)
Definition transport0 : transport := {| values := fun _ => None; byname := fun _ => None |}.
Definition registry0 : registry := fun _ => [].
Definition set_name (t : transport) (n : str) (ty : gty) : transport :=
  {| values := values t; byname := fun n' => if str_dec n n' then Some ty else byname t n' |}.
Definition set_value (t : transport) (v : rval) : transport :=
  {| values := fun ty => if gty_eqb (vty v) ty then Some v else values t ty; byname := byname t |}.
Definition append (g : registry) (ty : gty) (e : str * gty) : registry :=
  fun ty' => if gty_eqb ty ty' then g ty' ++ [e] else g ty'.
Definition is_string (t : gty) : bool := match t with GStr _ => true | _ => false end.

Inductive json := JNull | JBool (b : bool) | JNum (lit : str) | JStr (s : str) | JArr (l : list json) | JObj (m : list (str * json)).
(** What a registered function returns: nil, or a closure over the receiver it was given and
    the runtime *)
Inductive received := PointerTo (ty : gty) (args : option json).
Record closure := { cfun : rval; crecv : received; crun : rval }.
(** rpc.go:111-114 [Any]; a nil RawMessage is None *)
Record any_fn := { call : str; args : option json }.
Section Rpc.
(** the name that a function returns for zero values; it may panic *)
Variable fname : Z -> outcome str.
(** json.Marshal replaces invalid UTF-8 *)
Variable coerce : str -> str.
(** the name of a member matches that of a field (without regard to case) *)
Variable fold_eqb : str -> str -> bool.
Definition world := (transport * registry)%type.
(** rpc.go:91-107 [Register]; None is nil *)
Definition register (w : world) (value : option rval) : world * outcome unit :=
  match value with
  | None => (w, Panic)
  | Some v =>
    match vty v with
    | GFunc [i0; i1] (o0 :: outs) =>
      if is_string o0 then
        match fname (vid v) with
        | Panic => (w, Panic)
        | Ok n =>
          let t := set_name (fst w) n (vty v) in
          match outs with
          | [] => ((t, snd w), Panic)
          | o1 :: _ => ((set_value t v, append (snd w) o1 (n, i0)), Ok tt)
          end
        end
      else ((set_value (fst w) v, snd w), Ok tt)
    | _ => ((set_value (fst w) v, snd w), Ok tt)
    end
  end.
(** a history of registrations; a panic is recovered *)
Definition registers (w : world) (l : list (option rval)) : world := fold_left (fun w v => fst (register w v)) l w.
(** rpc.go:116-135 [TypesJSON]: the constant of Call and the type of Args *)
Definition types_json (g : registry) (T : gty) : list (str * gty) := g T.
(** reflect: a *X may be given where X is asked only when X is the empty interface *)
Definition assignable_pointer (ty : gty) : bool := match ty with GAny => true | _ => false end.
(** rpc.go:139-161 [Any.Call]; None is the nil function *)
Definition call_fn (t : transport) (T : gty) (fn : any_fn) : outcome (option closure) :=
  match call fn with
  | [] => Ok None
  | _ =>
    match byname t (call fn) with
    | Some (GFunc [i0; i1] [o0; o1]) =>
      if negb (is_string o0) || negb (gty_eqb o1 T) then Ok None
      else
        match values t (GFunc [i0; i1] [o0; o1]) with
        | None => Ok None
        | Some v =>
          match values t i1 with
          | None => Ok None
          | Some r => if assignable_pointer i0 then Ok (Some {| cfun := v; crecv := PointerTo i0 (args fn); crun := r |}) else Panic
          end
        end
    | _ => Ok None
    end
  end.
Definition k_call : str := [99; 97; 108; 108].
Definition k_args : str := [97; 114; 103; 115].
(** rpc.go:164-172 [MarshalJSON] *)
Definition marshal (fn : any_fn) : json :=
  JObj [(k_call, JStr (coerce (call fn))); (k_args, match args fn with Some j => j | None => JNull end)].
(** rpc.go:175-186 [UnmarshalJSON]: json.Unmarshal into the two fields; null for a string leaves
    it empty and for a RawMessage is stored; a json error is None *)
Fixpoint members (l : list (str * json)) (acc : any_fn) : option any_fn :=
  match l with
  | [] => Some acc
  | (k, v) :: r =>
    if fold_eqb k k_call then
      match v with
      | JStr s => members r {| call := s; args := args acc |}
      | JNull => members r acc
      | _ => None
      end
    else if fold_eqb k k_args then members r {| call := call acc; args := Some v |}
    else members r acc
  end.
Definition unmarshal (old : any_fn) (j : json) : option any_fn :=
  match j with
  | JObj l => members l {| call := []; args := None |}
  | JNull => Some {| call := []; args := None |}
  | _ => None
  end.
(** rpc.go:195-202 [Call]: from the name that the function gives and its encoding, None when it
    cannot be encoded *)
Definition call_of (name : str) (enc : option json) : any_fn := {| call := name; args := enc |}.
End Rpc.
