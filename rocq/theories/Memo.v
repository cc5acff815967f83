(** The memoizing analysis bundled with the tool's tests:
    wastrumentation-instr-lib/tests/analyses/rust/pure-functions-memoization/src/lib.rs.
    Not modelled: [CACHE_SIZE_REPORT] and [CACHE_HIT_REPORT] (L18-26), two getters; the hash
    function of [FnvIndexMap], whose [insert] is taken to fail only when the map is full and lacks
    the key. *)
From Verif Require Import Semantics RsStdlib System Analyses.
Local Open Scope string_scope.
Local Open Scope list_scope.

(** [CACHE_CAPACITY], [CACHED_VALUES_MAX_CAPACITY], [CACHED_RESULTS_MAX_CAPACITY], L7-9. *)
Definition cache_capacity : nat := Z.to_nat 1024.
(** [CACHED_VALUES_MAX_CAPACITY], L8. *)
Definition cached_values_max : Z := 10.
(** [CACHED_RESULTS_MAX_CAPACITY], L9. *)
Definition cached_results_max : Z := 10.

(** [to_le_bytes]: the [n] low bytes, least significant first. *)
Fixpoint le_bytes (n : nat) (z : Z) : list Z :=
  match n with O => [] | S n' => (z mod 256)%Z :: le_bytes n' (z / 256)%Z end.
(** [to_bit_pattern], L28-38. References do not occur: functions using them are not reported. *)
Definition to_bit_pattern (v : val) : list Z :=
  match v with
  | VNum TI32 z | VNum TF32 z => le_bytes 4 z ++ repeat 0%Z 4
  | VNum TI64 z | VNum TF64 z => le_bytes 8 z
  | VRef _ _ => []
  end.
(** [CacheKey], L40-45, with its derived equality. *)
Definition cache_key : Type := Z * list (list Z).
(** Derived [PartialEq] of [CacheKey], L40-45. *)
Definition key_eqb (a b : cache_key) : bool := Z.eqb (fst a) (fst b) && list_eqb (list_eqb Z.eqb) (snd a) (snd b).

(** [CACHE] and [CACHE_HITS], L11-16. *)
Record memo := Memo { m_hits : Z; m_cache : list (cache_key * list val) }.
(** [CACHE] and [CACHE_HITS] at the start, L11-16. *)
Definition empty_memo : memo := Memo 0 [].

(** [FnvIndexMap::insert] of a map of [cap] places; [None] is the error. *)
Definition map_insert (cap : nat) (k : cache_key) (rs : list val) (c : list (cache_key * list val)) : option (list (cache_key * list val)) :=
  match kget key_eqb k c with
  | Some _ => Some (kput key_eqb k rs c)
  | None => if Nat.ltb (List.length c) cap then Some (kput key_eqb k rs c) else None
  end.

Section Memo.
  Context {Y : Type}.
  Notation X := (sys (memo * Y)).
  Variable stack : string -> list val -> xprog X.
  Variable cap : nat.

  (** The state of the analysis, read and replaced. *)
  Definition with_memo (k : memo -> xprog X) : xprog X := XGet (fun x _ _ => k (fst (snd x))).
  (** Assignment to the two statics. *)
  Definition set_memo (c : memo) (k : xprog X) : xprog X := XGet (fun x m g => XPut (fst x, (c, snd (snd x))) m g k).

  (** [cache_retrieve], L51-59, from the [i]-th value on. *)
  Fixpoint cache_retrieve (rs : list val) (i : Z) (results : runtime_values) : xprog X :=
    match rs with
    | [] => XRet []
    | v :: rs' => xbind (set_res stack results i v) (fun _ => cache_retrieve rs' (i + 1)%Z results)
    end.
  (** [cache_insert], L61-70: the [assert_eq!] and the [unwrap] panic. *)
  Definition cache_insert (k : cache_key) (results : runtime_values) : xprog X :=
    ress_iter stack results (fun rs =>
      if Z.eqb (Z.of_nat (List.length rs)) (rv_resc results) then
        with_memo (fun c =>
          match map_insert cap k rs (m_cache c) with
          | Some c' => set_memo (Memo (m_hits c) c') (XRet [])
          | None => XTrap
          end)
      else XTrap).
  (** [apply], L72-97. *)
  Definition memo_apply (func : wasm_function) (args results : runtime_values) : xprog X :=
    with_memo (fun c =>
      if (cached_values_max <? rv_argc args)%Z || (cached_results_max <? rv_resc results)%Z
         || Nat.eqb (List.length (m_cache c)) cap
      then wasm_function_apply func
      else
        args_iter stack args (fun vs =>
          let k := (wf_index func, map to_bit_pattern vs) in
          with_memo (fun c =>
            match kget key_eqb k (m_cache c) with
            | Some rs => set_memo (Memo (wrapS 32 (m_hits c + 1)) (m_cache c)) (cache_retrieve rs 0 results)
            | None => xbind (wasm_function_apply func) (fun _ => cache_insert k results)
            end))).
  (** The analysis: [apply] is its only advice, so it exports no other function. *)
  Definition memo_analysis : string -> list val -> xprog X := rs_analysis (fun _ => XTrap) stack memo_apply.
End Memo.
