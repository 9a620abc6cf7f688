(** What users of a REST host and of a linked client rely on. *)
From Coq Require Import String.
From Verif Require Import GoBase GoText HostModel.
Local Open Scope Z_scope.
Local Open Scope list_scope.

(** A message as people write them: not empty, and no blank first or last. *)
Definition blank (b : Z) : Prop := In b [9; 10; 11; 12; 13; 32].
Definition tidy (m : bytes) : Prop := exists b l, hd_error m = Some b /\ ~ blank b /\ hd_error (rev m) = Some l /\ ~ blank l.
(** The statuses of errors that reach the caller of a linked function as they were given. *)
Definition error_status (s : Z) : Prop := 400 <= s <= 599.
Definition special_status (s : Z) : Prop := In s [404; 411; 413; 414; 429; 431; 500].
(** The function was reached: the arguments could be read, and authentication and authorization (if any)
    let the request through. *)
Section Reached.
Variables (V Ctx Args : Type).
Definition allowed (a : option (auth Ctx Args)) (ctx0 ctx : Ctx) (args : Args) : Prop :=
  match a with None => ctx = ctx0 | Some a => authenticate _ _ a = (ctx, None) /\ authorize _ _ a ctx args = None end.
End Reached.
