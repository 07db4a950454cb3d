(** Property theorems for C05 and C06 (uwb-beacon-firmware LRU cache, anchor position cache). *)
From Coq Require Import NArith List Lia.
From Verif Require Import LruModel LruSpec LruProofs.
Import ListNotations.

(** C05: with at least two entries no sequence of calls goes wrong or loops ([fuel] bounds the
    number of loop iterations, [n + 1] is always enough). *)
Theorem lru_never_stuck : forall n fuel ops, 2 <= n -> n < fuel ->
  exists c tr, run fuel n ops = Ok (c, tr).
Proof. exact lru_total_l. Qed.
Print Assumptions lru_never_stuck.

(** C05: after any history, allocation returns an entry of the array which was never used; if
    there is none, the one whose last use is the oldest. *)
Theorem lru_evicts_least_recent : forall n fuel ops c tr k, 2 <= n -> n < fuel ->
  run fuel n ops = Ok (c, tr) ->
  exists c' e, cache_entry_allocate fuel c k = Ok (c', e) /\ e < n /\
    (age tr e = None \/
     ((forall e', e' < n -> age tr e' <> None) /\ (forall e', e' < n -> e' <> e -> more_recent tr e' e))).
Proof. exact lru_alloc_l. Qed.
Print Assumptions lru_evicts_least_recent.

(** C05: after any history, lookup finds an entry exactly when one was last allocated for the key,
    and then the most recently used such entry. *)
Theorem lru_get_finds : forall n fuel ops c tr k, 2 <= n -> n < fuel ->
  run fuel n ops = Ok (c, tr) ->
  exists c' r, cache_entry_get fuel c k = Ok (c', r) /\
    match r with
    | Some e => current_key tr e = Some k /\
                forall e', e' <> e -> current_key tr e' = Some k -> more_recent tr e e'
    | None => forall e, current_key tr e <> Some k
    end.
Proof. exact lru_get_l. Qed.
Print Assumptions lru_get_finds.

Example lru_example : exists c tr, run 4 3 [OAlloc 1; OAlloc 2; OAlloc 3; OGet 1; OGet 9; OAlloc 4]%N = Ok (c, tr)
  /\ tr = [EAlloc 4%N 1; EGet 9%N None; EGet 1%N (Some 0); EAlloc 3%N 2; EAlloc 2%N 1; EAlloc 1%N 0]
  /\ more_recent tr 1 0 /\ more_recent tr 0 2.
Proof.
  do 2 eexists. split; [reflexivity|]. split; [reflexivity|].
  split; [exists 0, 2|exists 2, 3]; cbn; repeat split; lia.
Qed.

(** C05 fails for a cache of one entry: after two allocations the entry points to itself and the
    lookup of a missing key never ends. *)
Theorem lru_capacity_one_refuted : forall fuel, exists c tr,
  run (S fuel) 1 [OAlloc 1%N; OAlloc 2%N] = Ok (c, tr) /\ forall f, cache_entry_get f c 3%N = Diverge.
Proof. exact lru_capacity_one_l. Qed.
Print Assumptions lru_capacity_one_refuted.

(** C06: a lookup never fails to end and returns nothing or the last position received for that
    very address. In particular nothing for an unknown address. *)
Theorem anchor_cache_never_wrong : forall fuel ops addr, 5 < fuel ->
  exists a r, arun fuel ops = Ok a /\ anchor_lookup fuel a addr = Ok r /\
    (r = None \/ (r <> None /\ r = last_msg (rev ops) addr)).
Proof. exact anchor_sound_l. Qed.
Print Assumptions anchor_cache_never_wrong.

(** C06: the last position of an anchor is available as long as at most four other addresses were
    heard or looked up since. *)
Theorem anchor_cache_recent_available : forall fuel ops0 m ops1, 5 < fuel ->
  Forall (fun o => op_addr o <> anchor_addr m) ops1 -> distinct_addrs ops1 < 5 ->
  exists a, arun fuel (ops0 ++ AMsg m :: ops1) = Ok a /\
            anchor_lookup fuel a (anchor_addr m) = Ok (Some m).
Proof. exact anchor_recent_l'. Qed.
Print Assumptions anchor_cache_recent_available.

(** C06: a successful lookup protects the position in the same way. *)
Theorem anchor_cache_lookup_refreshes : forall fuel ops0 addr ops1 a0 m, 5 < fuel ->
  arun fuel ops0 = Ok a0 -> anchor_lookup fuel a0 addr = Ok (Some m) ->
  Forall (fun o => op_addr o <> addr) ops1 -> distinct_addrs ops1 < 5 ->
  exists a, arun fuel (ops0 ++ ALookup addr :: ops1) = Ok a /\ anchor_lookup fuel a addr = Ok (Some m).
Proof. exact anchor_refresh_l'. Qed.
Print Assumptions anchor_cache_lookup_refreshes.

Example anchor_example : exists a,
  arun 6 ([AMsg (mk 9 9)] ++ AMsg (mk 1 11) :: [AMsg (mk 2 22); ALookup 7; AMsg (mk 2 23); AMsg (mk 3 33); AMsg (mk 4 44)]) = Ok a
  /\ distinct_addrs [AMsg (mk 2 22); ALookup 7; AMsg (mk 2 23); AMsg (mk 3 33); AMsg (mk 4 44)] = 4
  /\ anchor_lookup 6 a 1 = Ok (Some (mk 1 11)) /\ anchor_lookup 6 a 2 = Ok (Some (mk 2 23)).
Proof. eexists. split; [reflexivity|]. repeat split. Qed.

(** The bound is sharp: with five other addresses the position is gone. *)
Example anchor_example_evicted : exists a,
  arun 6 [AMsg (mk 1 11); AMsg (mk 2 2); AMsg (mk 3 3); AMsg (mk 4 4); AMsg (mk 5 5); AMsg (mk 6 6)] = Ok a
  /\ anchor_lookup 6 a 1 = Ok None.
Proof. eexists. split; reflexivity. Qed.

(** C06 does not extend to the pointer which the lookup returns: it is used after the semaphore is
    released, and after five other anchors it shows another anchor's position. *)
Theorem anchor_pointer_stable_refuted : exists a a' e,
  arun 10 [AMsg (mk 1 11)] = Ok a /\
  anchor_position_cache_get 10 a 1 = Ok (a', Some e) /\ content a' e = mk 1 11 /\
  exists a'', arun_from 10 a' [AMsg (mk 2 22); AMsg (mk 3 33); AMsg (mk 4 44); AMsg (mk 5 55); AMsg (mk 6 66)] = Ok a''
   /\ content a'' e = mk 6 66.
Proof. exact anchor_pointer_l. Qed.
Print Assumptions anchor_pointer_stable_refuted.
