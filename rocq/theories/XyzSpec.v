(** What the containers of package xyz promise, independently of the code (C37 to C43, C85). *)
From Verif Require Import GoBase XyzModel.

(** ** Duplex numbers *)
(** [a ± b ± c ...] for a choice of signs, true is minus *)
Fixpoint signed_sum {T} (add sub : T -> T -> T) (a : T) (signs : list bool) (d : list T) : T :=
  match signs, d with
  | s :: signs', x :: d' => signed_sum add sub (if s then sub a x else add a x) signs' d'
  | _, _ => a
  end.
(** the position of a choice of signs: plus before minus, leftmost most significant *)
Fixpoint position (signs : list bool) : nat :=
  match signs with
  | [] => 0
  | s :: r => ((if s then 2 ^ length r else 0) + position r)%nat
  end.
Fixpoint signed_total (signs : list bool) (d : list Z) : Z :=
  match signs, d with
  | s :: r, x :: d' => (if s then - x else x) + signed_total r d'
  | _, _ => 0
  end.

(** ** Switch types *)
Definition field_name (f : str * option str) : str := match f with (_, Some t) => t | (n, None) => n end.
Definition switch_width (w : Z) : Prop := In w [8; 16; 32; 64].
(** how many values the storage can tell apart *)
Definition room (k : skind) (n : nat) : Prop :=
  match k with
  | SBool => (n <= 2)%nat
  | SInt w => switch_width w /\ Z.of_nat n <= 2 ^ (w - 1)
  | SUint w => switch_width w /\ Z.of_nat n <= 2 ^ w
  | SString | SFloat => True
  | SUintptr => False
  end.
(** a word that fmt.Sscan reads whole *)
Definition a_word (s : str) : Prop := s <> [] /\ Forall (fun c => 33 <= c <= 126) s.
(** z is a number of the storage kind *)
Definition in_storage (k : skind) (z : Z) : Prop :=
  match k with
  | SInt w => switch_width w /\ - 2 ^ (w - 1) <= z < 2 ^ (w - 1)
  | SUint w => switch_width w /\ 0 <= z < 2 ^ w
  | SUintptr => 0 <= z < 2 ^ 64
  | _ => False
  end.

(** ** Tuples *)
Fixpoint leaves {V} (t : tuple V) : list V :=
  match t with
  | Leaf v => [v]
  | Pair x y => leaves x ++ leaves y
  | Trio x y z => leaves x ++ leaves y ++ leaves z
  | Quad x y z w => leaves x ++ leaves y ++ leaves z ++ leaves w
  end.

(** ** Optional values *)
(** what a program does with its Maybe variables *)
Inductive maybe_op {T : Type} :=
| MNew (x : nat) (v : T) | MUnmarshal (x : nat) (d : json) | MClear (x : nat) | MCopy (x y : nat).
Arguments maybe_op : clear implicits.
Definition run_maybe {T} (ut : json -> option T) (h : mheap T) (o : maybe_op T) : mheap T :=
  match o with
  | MNew x v => maybe_new h x v
  | MUnmarshal x d => fst (maybe_unmarshal ut h x d)
  | MClear x => maybe_clear h x
  | MCopy x y => maybe_assign h x y
  end.
(** the intended meaning: every variable has its own value *)
Definition spec_maybe {T} (ut : json -> option T) (s : nat -> option T) (o : maybe_op T) : nat -> option T :=
  let set x v := fun y => if Nat.eqb y x then v else s y in
  match o with
  | MNew x v => set x (Some v)
  | MUnmarshal x d => match d with JNull => set x None | _ => match ut d with Some v => set x (Some v) | None => s end end
  | MClear x => set x None
  | MCopy x y => set x (s y)
  end.
Definition no_copy {T} (o : maybe_op T) : Prop := match o with MCopy _ _ => False | _ => True end.

(** ** Tagged unions *)
(** characters with a meaning in tags: , ? = *)
Definition plain (s : str) : Prop := s <> [] /\ Forall (fun c => c <> 44 /\ c <> 63 /\ c <> 61) s.
(** nothing, or a comma and anything *)
Definition options (s : str) : Prop := match s with [] => True | c :: _ => c = 44 end.
(** [keyed c key]: what a user takes for the key of a case *)
Inductive keyed (c : case) : str -> Prop :=
| KeyText t : ctxt c = Some t -> cjson c = [] -> Forall (fun x => x <> 37) t -> keyed c t
| KeyName n o : ctxt c = None -> cjson c = n ++ o -> plain n -> options o -> keyed c n
| KeyKind o : ctxt c = None -> cjson c = 44 :: o -> plain (cname c) -> keyed c (cname c)
| KeyConst n f v o : ctxt c = None -> cjson c = n ++ 63 :: f ++ 61 :: v ++ o -> plain f -> plain v ->
    Forall (fun c => c <> 44 /\ c <> 63 /\ c <> 61) n -> options o -> keyed c v.
(** the field name of a discriminated case is another way to name it *)
Inductive also_named (c : case) : str -> Prop :=
| AlsoConst n r : cjson c = n ++ 63 :: r -> Forall (fun c => c <> 44 /\ c <> 63 /\ c <> 61) n -> also_named c n.
Definition memory_kind (k : stype) : Prop :=
  match k with KBool | KInt _ | KUint _ | KFloat _ | KComplex _ => True | _ => False end.
(** printable ASCII that json and Go quote alike *)
Definition simple (s : str) : Prop :=
  s <> [] /\ Forall (fun c => 32 <= c <= 126 /\ c <> 34 /\ c <> 92 /\ c <> 60 /\ c <> 62 /\ c <> 38 /\ c <> 44) s.
(** the JSON kinds that a case can name in its tag *)
Inductive jkind := JKString | JKNumber | JKObject | JKArray | JKNull.
Definition kind_text (q : jkind) : str :=
  match q with
  | JKString => [115;116;114;105;110;103] | JKNumber => [110;117;109;98;101;114]
  | JKObject => [111;98;106;101;99;116] | JKArray => [97;114;114;97;121] | JKNull => [110;117;108;108]
  end.
Definition of_kind (d : json) (q : jkind) : Prop :=
  match d, q with
  | JStr _, JKString | JNum _, JKNumber | JObj _, JKObject | JArr _, JKArray | JNull, JKNull => True
  | _, _ => False
  end.
Definition fresh (k : stype) (v : variant) : Prop := ram_of v = ram0 k.
