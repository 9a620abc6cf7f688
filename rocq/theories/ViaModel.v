(** Model of package via (via/via.go) on a 64-bit machine.

    Simplifications: values are their memory images (lists of bytes); types are identified by
    numbers; the methods of proxies and the allocator are arbitrary functions, and what they do
    besides returning is not modelled. *)
From Verif Require Import GoBase.

(** ** Cached state *)
(** An interface header: the word for the type (for reflect.Type a pointer to a method table, for
    any a pointer to the type itself; nil is WNil) and the word for the data. *)
Inductive word := WNil | WTable (type_id : Z) | WType (type_id : Z) | WData (addr : Z).
Definition word_eqb (a b : word) : bool :=
  match a, b with
  | WNil, WNil => true
  | WTable x, WTable y | WType x, WType y | WData x, WData y => x =? y
  | _, _ => false
  end.
(** via.go:8-11 [CachedState]: a reflect.Type (two words) and 16 bytes *)
Record cached := { rtype_tab : word; rtype_data : word; value : bytes }.
(** reflect.TypeFor[P](): all reflect.Types are of the Go type number 0; a type's
    descriptor is at the address of its number *)
Definition type_for (p : Z) : word * word := (WTable 0, WData p).
(** Comparison of two interface values *)
Definition iface_eqb (a b : word * word) : bool := word_eqb (fst a) (fst b) && word_eqb (snd a) (snd b).
(** via.go:13-25 [Cacheable]: the element types with their sizes, whether the bare type is
    listed, and the longest array listed (from 1) *)
Definition cacheable_rows : list (Z * bool * Z) :=
  [ (1, true, 16); (2, true, 8); (4, true, 4); (8, true, 2); (8, true, 2);      (* uint8 16 32 64, uintptr *)
    (1, true, 16); (2, true, 8); (4, true, 4); (8, true, 2); (8, true, 2);      (* int8 16 32 64, int *)
    (8, false, 2);                                                              (* uint *)
    (4, true, 4); (8, true, 2); (8, true, 2); (16, true, 1);                    (* float32 64, complex64 128 *)
    (1, true, 0) ].                                                             (* bool *)
(** A type admitted by [Cacheable] has this size *)
Definition cacheable_size (n : Z) : Prop :=
  exists size bare most, In (size, bare, most) cacheable_rows /\
    ((bare = true /\ n = size) \/ exists k, 1 <= k <= most /\ n = k * size).
Definition zeros (n : nat) : bytes := repeat 0 n.
(** via.go:27-34 [NewCache]: the image is stored at the start of 16 zero bytes *)
Definition new_cache (p : Z) (state : bytes) : cached :=
  {| rtype_tab := fst (type_for p); rtype_data := snd (type_for p); value := state ++ skipn (length state) (zeros 16) |}.
(** via.go:35-40 [Cached], for a T of [size] bytes *)
Definition cached_of (p : Z) (size : Z) (s : cached) : outcome bytes :=
  if negb (iface_eqb (rtype_tab s, rtype_data s) (type_for p)) then Panic
  else Ok (firstn (Z.to_nat size) (value s)).

(** Types for [canCache]: something without pointers that is neither struct nor array, one of
    the refused kinds, a struct, an array; all with their size *)
Inductive vtype :=
| TPlain (size : Z) | TRef (size : Z) | TStruct (size : Z) (fields : list vtype) | TArray (size : Z) (n : nat) (elem : vtype).
Definition vsize (t : vtype) : Z :=
  match t with TPlain s | TRef s | TStruct s _ | TArray s _ _ => s end.
(** via.go:52-69 [canCache] *)
Fixpoint can_cache (t : vtype) : bool :=
  if 16 <? vsize t then false
  else match t with
       | TRef _ => false
       | TStruct _ fs => forallb can_cache fs
       | TPlain _ | TArray _ _ _ => true
       end.
(** A value of type any: nil, or a type, its number and the address of the value *)
Inductive anyval := ANil | AVal (t : vtype) (id : Z) (addr : Z).
(** via.go:42-50 [TryCache]; the variable holding the argument is two words, read as a
    CachedState of four: [beyond] is what lies behind it in memory *)
Definition try_cache (val : anyval) (beyond : bytes) : cached * bool :=
  match val with
  | ANil => ({| rtype_tab := WNil; rtype_data := WNil; value := zeros 16 |}, false)
  | AVal t id addr =>
    if can_cache t then ({| rtype_tab := WType id; rtype_data := WData addr; value := firstn 16 beyond |}, true)
    else ({| rtype_tab := WNil; rtype_data := WNil; value := zeros 16 |}, false)
  end.

(** ** Proxies *)
(** What is known of an implementation of the API: its type, whether it is alive with a state,
    and whether it has a method Proxy(T) *)
Record proxy := { ptype : Z; alive : cached -> bool; translator : bool }.
(** via.go:71-74 [Any]; None is the nil interface *)
Record any_api := { state : bytes; impl : option proxy }.
(** via.go:76-78 [Methods] *)
Definition methods (a : any_api) : option proxy := impl a.
(** via.go:79-81 [Internal]; reflect.TypeOf of a nil interface is nil *)
Definition internal (a : any_api) : cached :=
  match impl a with
  | Some p => {| rtype_tab := fst (type_for (ptype p)); rtype_data := snd (type_for (ptype p)); value := state a |}
  | None => {| rtype_tab := WNil; rtype_data := WNil; value := state a |}
  end.
(** via.go:98-103 [New] *)
Definition new_any (p : option proxy) (c : cached) : any_api := {| state := value c; impl := p |}.
(** What Proxy calls *)
Inductive event := Asked (p : proxy) (s : cached) | Allocated (a : any_api) | Notified (p : proxy) (a : any_api).
(** via.go:105-118 [Proxy]: [is_v], [is_i]: which dynamic types are a V and implement I *)
Definition proxy_of (is_v is_i : Z -> bool) (alloc : any_api -> option proxy * cached) (val : any_api) :
  list event * outcome (option proxy * cached) :=
  let ask := match impl val with
             | Some p => if is_v (ptype p) then Some (p, alive p (internal val)) else None
             | None => None
             end in
  match ask with
  | Some (p, true) => ([Asked p (internal val)], Ok (Some p, internal val))
  | _ =>
    let asked := match ask with Some (p, _) => [Asked p (internal val)] | None => [] end in
    let '(np, st) := alloc val in
    match impl val with
    | Some p =>
      if translator p then
        match np with
        | Some q => if is_i (ptype q) then (asked ++ [Allocated val; Notified p (new_any np st)], Ok (np, st))
                    else (asked ++ [Allocated val], Panic)
        | None => (asked ++ [Allocated val], Panic)
        end
      else (asked ++ [Allocated val], Ok (np, st))
    | None => (asked ++ [Allocated val], Ok (np, st))
    end
  end.
