(** JSON text for Go values, independently of the code (C46, C90): which texts a decoder must
    accept for a type, and what it must store over what was there before. *)
From Verif Require Import GoBase JrpcModel JrpcSpec.

(** the key of a field: its name in Go when it has no tag, else what its tag has before a comma;
    "-" is no key *)
Inductive key_of : bytes * bytes * ty -> bytes -> Prop :=
| key_go name t : key_of (name, [], t) name
| key_tag name tag t n opts : tag <> [] -> tag = n ++ opts -> Forall (fun c => c <> 44) n -> opts = [] \/ hd 0 opts = 44 -> n <> [45] ->
    key_of (name, tag, t) n.
(** [l] with [v] at place [i] *)
Inductive replaced {A} : nat -> A -> list A -> list A -> Prop :=
| rep_here v a l : replaced 0 v (a :: l) (v :: l)
| rep_there i v a l l' : replaced i v l l' -> replaced (S i) v (a :: l) (a :: l').
(** a map with one more entry, which replaces one with the same key *)
Inductive entered : bytes -> val -> list (val * val) -> list (val * val) -> Prop :=
| ent_new k v : entered k v [] [(VStr k, v)]
| ent_same k v w m : entered k v ((VStr k, w) :: m) ((VStr k, v) :: m)
| ent_later k k' v w m m' : k <> k' -> entered k v m m' -> entered k v ((VStr k', w) :: m) ((VStr k', w) :: m').
Definition spaces (ws : bytes) : Prop := Forall blank ws.
(** [denotes t old x v]: the text x gives the value v of type t to a variable that held old *)
Inductive denotes : ty -> val -> bytes -> val -> Prop :=
| den_true old : denotes TBool old [116; 114; 117; 101] (VBool true)
| den_false : denotes TBool (VBool false) [102; 97; 108; 115; 101] (VBool false)
| den_int w old x z : width w -> fits_int w z -> json_int x z -> denotes (TInt w) old x (VInt z)
| den_uint w old x z : width w -> fits_uint w z -> json_int x z -> denotes (TUint w) old x (VInt z)
| den_string old x s : json_string x s -> denotes TString old x (VStr s)
| den_slice e old x vs : elements e [] x vs -> denotes (TSlice e) old (91 :: x ++ [93]) (VSlice (Some vs))
| den_array n e olds x vs : length olds = n -> elements e olds x vs -> (length vs <= n)%nat ->
    denotes (TArray n e) (VArray olds) (91 :: x ++ [93]) (VArray (vs ++ skipn (length vs) olds))
| den_ptr_new e x v : denotes e (zero e) x v -> denotes (TPtr e) (VPtr None) x (VPtr (Some v))
| den_ptr_old e old x v : denotes e old x v -> denotes (TPtr e) (VPtr (Some old)) x (VPtr (Some v))
| den_map_new e x m : entries e [] x m -> denotes (TMap TString e) (VMap None) (123 :: x ++ [125]) (VMap (Some m))
| den_map_old e old x m : entries e old x m -> denotes (TMap TString e) (VMap (Some old)) (123 :: x ++ [125]) (VMap (Some m))
| den_struct fs olds x vs : members fs olds x vs -> denotes (TStruct fs) (VStruct olds) (123 :: x ++ [125]) (VStruct vs)
(** one or more elements; [olds]: what the variables of the elements held, zero values behind that *)
with elements : ty -> list val -> bytes -> list val -> Prop :=
| elm_last e olds ws x ws' v : spaces ws -> spaces ws' -> denotes e (hd (zero e) olds) x v -> elements e olds (ws ++ x ++ ws') [v]
| elm_more e olds ws x ws' v y vs : spaces ws -> spaces ws' -> denotes e (hd (zero e) olds) x v -> elements e (tl olds) y vs ->
    elements e olds (ws ++ x ++ ws' ++ 44 :: y) (v :: vs)
(** one or more entries of a map, entered one after the other *)
with entries : ty -> list (val * val) -> bytes -> list (val * val) -> Prop :=
| ent_last e m m1 k key ws ws1 ws2 x ws3 v : spaces ws -> spaces ws1 -> spaces ws2 -> spaces ws3 ->
    json_string k key -> denotes e (zero e) x v -> entered key v m m1 -> entries e m (ws ++ k ++ ws1 ++ 58 :: ws2 ++ x ++ ws3) m1
| ent_more e m m1 m2 k key ws ws1 ws2 x ws3 v y : spaces ws -> spaces ws1 -> spaces ws2 -> spaces ws3 ->
    json_string k key -> denotes e (zero e) x v -> entered key v m m1 -> entries e m1 y m2 ->
    entries e m (ws ++ k ++ ws1 ++ 58 :: ws2 ++ x ++ ws3 ++ 44 :: y) m2
(** one or more members of a struct, each the only field with its key, stored one after the other *)
with members : list (bytes * bytes * ty) -> list val -> bytes -> list val -> Prop :=
| mem_last fs vs vs1 k key i f ws ws1 ws2 x ws3 old v : spaces ws -> spaces ws1 -> spaces ws2 -> spaces ws3 ->
    json_string k key -> nth_error fs i = Some f -> key_of f key -> (forall j g, nth_error fs j = Some g -> key_of g key -> j = i) ->
    length vs = length fs -> nth_error vs i = Some old -> denotes (snd f) old x v -> replaced i v vs vs1 ->
    members fs vs (ws ++ k ++ ws1 ++ 58 :: ws2 ++ x ++ ws3) vs1
| mem_more fs vs vs1 vs2 k key i f ws ws1 ws2 x ws3 old v y : spaces ws -> spaces ws1 -> spaces ws2 -> spaces ws3 ->
    json_string k key -> nth_error fs i = Some f -> key_of f key -> (forall j g, nth_error fs j = Some g -> key_of g key -> j = i) ->
    length vs = length fs -> nth_error vs i = Some old -> denotes (snd f) old x v -> replaced i v vs vs1 -> members fs vs1 y vs2 ->
    members fs vs (ws ++ k ++ ws1 ++ 58 :: ws2 ++ x ++ ws3 ++ 44 :: y) vs2.
Scheme denotes_mind := Induction for denotes Sort Prop
with elements_mind := Induction for elements Sort Prop
with entries_mind := Induction for entries Sort Prop
with members_mind := Induction for members Sort Prop.
Combined Scheme denotes_all from denotes_mind, elements_mind, entries_mind, members_mind.
