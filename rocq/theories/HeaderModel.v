(** * Clients that add headers: api/rest/link.go:30-57 [Header], api/internal/http/auth.go:13-35
    [ClientWithHeaders] and [ClientWithHeader] (the client of api/open/ai/api.go:27).

    What is around them is net/http's Client.Do: it follows redirects, at most ten requests in
    all, sends the headers of the first request again to every place it is sent to, and
    leaves out Authorization, Www-Authenticate, Cookie and Cookie2 when that is no longer
    the domain of the first request or below it. A header is a list of keys in canonical
    form, each with one value. *)
From Coq Require Import String.
From Verif Require Import GoBase GoText CorsModel.
Open Scope list_scope.
Open Scope Z_scope.

Definition del_header (k : bytes) (h : header) : header := filter (fun p => negb (beq (fst p) k)) h.
Definition set_all (add : header) (h : header) : header := fold_left (fun h p => set_header (fst p) (snd p) h) add h.
Definition del_all (add : header) (h : header) : header := fold_left (fun h p => del_header (fst p) h) add h.

(** link.go:46-57, auth.go:16-22, 29-33 [RoundTrip]: what the transport under it is given,
    and what the request is left with *)
Definition round_trip (add : header) (h : header) : header * header := (set_all add h, del_all add (set_all add h)).

(** net/http *)
Definition sensitive (k : bytes) : bool :=
  existsb (beq k) [text "Authorization"; text "Www-Authenticate"; text "Cookie"; text "Cookie2"].
Section Do.
Variable place : Type.                       (* scheme and host *)
Variable within : place -> place -> bool.    (* the first domain, and one it may be below *)
(** what answers at a place: done, or a redirect *)
Variable server : place -> header -> option place.
Variable add : header.
(** the requests that arrive, in order; [h0] are the headers of the first request. A domain
    once left is not trusted again (net/http since Go 1.24; before, it is: [forget]). *)
Variable forget : bool.
Fixpoint follow (n : nat) (first : place) (h0 : header) (gone : bool) (p : place) : list (place * header) :=
  match n with
  | O => []
  | S n' =>
    let out := gone || negb (within first p) in
    let h := filter (fun x => negb out || negb (sensitive (fst x))) h0 in
    let sent := fst (round_trip add h) in
    (p, sent) :: match server p sent with
                 | None => []
                 | Some q => follow n' first h0 (if forget then false else out) q
                 end
  end.
Definition sends (h : header) (p : place) : list (place * header) := follow 10 p h false p.
(** what the caller's own request is left with: every round trip of the first place is given
    its headers; those after a redirect are copies *)
Definition left_with (h : header) : header := snd (round_trip add h).
End Do.
