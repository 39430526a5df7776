(** Model of protocol/grpc/channel_resolver.rs:42-107, the cache of connections to workers.

    Calls of [get_channel] by any number of tasks interleave. The cache (moka) is atomic per URL; the future kept in it
    is [Shared]: it runs once, when polled by anyone waiting for it, and everyone gets its result. Connecting is the
    library's and may succeed or fail at any time after it began (lines 68-93, which includes URLs that are no
    endpoints). *)
From Verif Require Import Base CiuModel.

Section Chan.
Context {err : Type}.

(** One future of lines 66-96: the URL, and its result: [inl] the connection (named by the number of the attempt). *)
Record attempt := mkAttempt { a_url : nat; a_result : option (unit + err) }.

(** One call of [get_channel]: the URL, the future it got at line 65, and what it returned. *)
Record call := mkCall { c_url : nat; c_attempt : nat; c_outcome : option (unit + err) }.

(** [r_cache]: the attempt kept for each URL. [r_dropped] is history: how often an entry was removed, by whom. *)
Inductive removal := Idle | AfterFailure (call_no : nat).
Record resolver := mkResolver {
  r_cache : nat -> option nat; r_attempts : list attempt; r_calls : list call; r_removed : list (nat * removal)
}.

(** Lines 48-61. *)
Definition resolver_new : resolver := mkResolver (fun _ => None) [] [] [].

Definition set (f : nat -> option nat) (u : nat) (v : option nat) : nat -> option nat := fun x => if x =? u then v else f x.

Inductive chan_step : resolver -> resolver -> Prop :=
(** Lines 65-97: the cached future, or a new one. *)
| hit_step r u a :
    r_cache r u = Some a ->
    chan_step r (mkResolver (r_cache r) (r_attempts r) (r_calls r ++ [mkCall u a None]) (r_removed r))
| miss_step r u :
    r_cache r u = None ->
    chan_step r (mkResolver (set (r_cache r) u (Some (List.length (r_attempts r)))) (r_attempts r ++ [mkAttempt u None])
                            (r_calls r ++ [mkCall u (List.length (r_attempts r)) None]) (r_removed r))
(** Lines 68-93: connecting ends. *)
| resolve_step r a u result :
    nth_error (r_attempts r) a = Some (mkAttempt u None) ->
    chan_step r (mkResolver (r_cache r) (upd (r_attempts r) a (mkAttempt u (Some result))) (r_calls r) (r_removed r))
(** Line 99: a waiting call returns the connection. *)
| return_ok_step r c u a :
    nth_error (r_calls r) c = Some (mkCall u a None) -> nth_error (r_attempts r) a = Some (mkAttempt u (Some (inl tt))) ->
    chan_step r (mkResolver (r_cache r) (r_attempts r) (upd (r_calls r) c (mkCall u a (Some (inl tt)))) (r_removed r))
(** Lines 99-102: a waiting call returns the error and removes what the cache has for the URL. *)
| return_err_step r c u a e :
    nth_error (r_calls r) c = Some (mkCall u a None) -> nth_error (r_attempts r) a = Some (mkAttempt u (Some (inr e))) ->
    chan_step r (mkResolver (set (r_cache r) u None) (r_attempts r) (upd (r_calls r) c (mkCall u a (Some (inr e))))
                            (r_removed r ++ [(u, AfterFailure c)]))
(** Lines 54-58: an entry is removed after five minutes without use or if there are too many. *)
| evict_step r u a :
    r_cache r u = Some a ->
    chan_step r (mkResolver (set (r_cache r) u None) (r_attempts r) (r_calls r) (r_removed r ++ [(u, Idle)])).
End Chan.
Arguments attempt : clear implicits.
Arguments call : clear implicits.
Arguments resolver : clear implicits.
