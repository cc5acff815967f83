(** Running the generated call-buffer library. *)
From Verif Require Import StackLib StackNames StackAsm RunLemmas.
Local Open Scope string_scope.
Local Open Scope list_scope.
Local Open Scope res_scope.

Definition page : Z := 65536.
(** The most that can be allocated: at 65536 pages the size in bytes wraps to zero. *)
Definition limit : Z := 65535 * 65536.
(** State of the library: free pointer, pages, bytes. *)
Definition L {X} (x : X) (p pg : Z) (f : Z -> Z) : store X :=
  St (Some (MemSt pg 65536 f)) [vi32 p; vi32 pg; vi32 1; vi32 65536; vi32 8; vi32 4] [] [] [] x.
Definition pages_for (after pg : Z) : Z := Z.max pg ((after + 65535) / 65536).

Section Run.
  Context {X : Type}.
  Notation store := (store X).
  Variable num1 : unop -> Z -> option Z.
  Variable num2 : binop -> Z -> Z -> option Z.
  Variable ftype : nat -> option functy.
  Variable call : nat -> list val -> store -> res store (list val * store).
  Variable loops : nat.
  Notation run := (run num1 num2 ftype call loops).

  Lemma run_gget i v r st ls s : nth_error (st_globals s) i = Some v ->
    run (UBasic (BGlobal GGet i) :: r) st ls s = run r (v :: st) ls s.
  Proof. intros E. unfold Semantics.run. simpl. now rewrite E. Qed.
  Lemma run_gset i w v r st ls s : nth_error (st_globals s) i = Some w ->
    run (UBasic (BGlobal GSet i) :: r) (v :: st) ls s = run r st ls (set_globals s (set_nth i v (st_globals s))).
  Proof. intros E. unfold Semantics.run. simpl. now rewrite E. Qed.
  Lemma run_bin o a b z r st ls s : binop_sem num2 o a b = Some z ->
    run (UBasic (BBinary o) :: r) (VNum (binop_in o) b :: VNum (binop_in o) a :: st) ls s
    = run r (VNum (binop_out o) z :: st) ls s.
  Proof.
    intros E. unfold Semantics.run. simpl. rewrite !(proj2 (numty_eqb_eq _ _)) by reflexivity. simpl. now rewrite E.
  Qed.
  Lemma run_un o a z r st ls s : unop_sem num1 o a = Some z ->
    run (UBasic (BUnary o) :: r) (VNum (unop_in o) a :: st) ls s = run r (VNum (unop_out o) z :: st) ls s.
  Proof.
    intros E. unfold Semantics.run. simpl. rewrite !(proj2 (numty_eqb_eq _ _)) by reflexivity. now rewrite E.
  Qed.
  Lemma run_br l r st ls (s : store) : run (UBasic (BBr l) :: r) st ls s = Ok (OBr l, st, ls, s).
  Proof. reflexivity. Qed.
  (** A conditional without parameters, results or else branch at the end of a body. *)
  Lemma run_if_last t c ls (s : store) :
    run [UIf ft_empty t None] [VNum TI32 c] ls s =
    if (c =? 0)%Z then next [] ls s
    else let* (o, st', ls', s') := run t (pushn [] []) ls s in
         match o with
         | ONext => next (st' ++ []) ls' s'
         | OBr O => next [] ls' s'
         | OBr (S l) => Ok (OBr l, st', ls', s')
         | ORet => Ok (ORet, st', ls', s')
         end.
  Proof.
    unfold Semantics.run at 1. cbn [run_seq run1 pop_i32 rbind]. rewrite andthen_next. destruct (c =? 0)%Z; [reflexivity|].
    unfold run_block. cbn [ft_empty ft_in ft_out List.length]. change (popn 0 []) with (Some (@nil val, @nil val)).
    cbn [rget rbind]. change (run_seq (run1 num1 num2 ftype call loops) t) with (run t).
    destruct (run t (pushn [] []) ls s) as [[[[[|[|l]|] st'] ls'] s']|s'| |]; reflexivity.
  Qed.
  Lemma run_loop_empty b r ls (s : store) :
    run (ULoop ft_empty b :: r) [] ls s = andthen (run_iter (run b) loops 0 [] [] ls s) (run r).
  Proof. reflexivity. Qed.
  Lemma run_nil st ls (s : store) : run [] st ls s = next st ls s.
  Proof. reflexivity. Qed.
End Run.

Section Lib.
  Context {X : Type}.
  Notation store := (store X).
  Variable num1 : unop -> Z -> option Z.
  Variable num2 : binop -> Z -> Z -> option Z.
  Variable ext : string -> string -> list val -> xprog X.
  Variable sigs : list functy.
  Notation ws := (generate_lib sigs).
  Definition at_ : wid -> nat := index_of ws.
  Definition lib_funcs : list func := map (resolve_fn at_) ws.
  Notation fs := lib_funcs.
  Notation call := (call_fn num1 num2 ext fs).

  Lemma fn_at f i : In f ws -> w_id f = Some i -> nth_error fs (at_ i) = Some (resolve_fn at_ f).
  Proof.
    intros I E. unfold lib_funcs. rewrite nth_error_map. change (at_ i) with (index_of ws i).
    now rewrite (@index_of_nth ws i f (idl_nodup sigs) I E).
  Qed.
  Lemma fn_exported f e : In f ws -> w_export f = Some e ->
    exists k, export_index 0 fs e = Some k /\ nth_error fs k = Some (resolve_fn at_ f).
  Proof.
    intros I E. destruct (@export_nth at_ ws e f 0 (exports_nodup sigs) I E) as (k & A & B).
    exists k. split; [exact A|]. unfold lib_funcs. now rewrite nth_error_map, B.
  Qed.

  (** ** Straight-line functions *)
  Definition rb (w : wins) : basic :=
    match w with W (LBasic b) => b | WCall i => BCall (at_ i) | W _ => BNop end.
  Definition straight (w : wins) : bool := match w with W (LBasic _) | WCall _ => true | W _ => false end.
  Definition ub (w : wins) : uinstr := UBasic (rb w).
  Lemma call_straight n k f args s : nth_error fs k = Some (resolve_fn at_ f) ->
    forallb straight (w_body f) = true -> List.length args = List.length (ft_in (w_type f)) ->
    call (S n) k args s
    = invoke (run num1 num2 (ftype_of fs) (call n) n (map ub (w_body f))) (w_type f) (w_locals f) args s.
  Proof.
    intros E S Ln. cbn [call_fn]. rewrite E. cbn [rget rbind resolve_fn fn_type fn_code].
    rewrite Ln, Nat.eqb_refl.
    replace (map (resolve at_) (w_body f) ++ [LEnd]) with (map LBasic (map rb (w_body f)) ++ [LEnd]).
    - rewrite structure_basics, map_map. reflexivity.
    - f_equal. rewrite map_map. rewrite forallb_forall in S. apply map_ext_in. intros w Iw. specialize (S _ Iw).
      destruct w as [[]|]; try discriminate S; reflexivity.
  Qed.
  Lemma ftype_at f i : In f ws -> w_id f = Some i -> ftype_of fs (at_ i) = Some (w_type f).
  Proof. intros I E. unfold ftype_of. now rewrite (@fn_at f i I E). Qed.

  (** The functions of the fixed part are part of the library. *)
  Lemma fixed_in f : In f boilerplate -> In f ws.
  Proof. intros I. unfold generate_lib. apply in_or_app. now left. Qed.
  Lemma generic_in ft f : In ft sigs -> In f (generic_fns (ft_count ft)) -> In f ws.
  Proof.
    intros I If. unfold generate_lib. apply in_or_app. right. apply in_or_app. left. apply in_flat_map.
    exists (ft_count ft). split; [|exact If]. apply firsts_in; [apply count_eqb_eq|].
    split; [now apply in_map|intros []].
  Qed.
  Lemma special_in ft f : In ft sigs -> In f (special_fns ft) -> In f ws.
  Proof.
    intros I If. unfold generate_lib. apply in_or_app. right. apply in_or_app. right. apply in_flat_map.
    exists ft. split; [|exact If]. apply firsts_in; [apply functy_eqb_iff|]. split; [exact I|intros []].
  Qed.

  Ltac fixed n := apply (fixed_in (f := nth n boilerplate (WFn None None ft_empty [] []))); simpl; tauto.
  Ltac step := first
    [ rewrite run_const | rewrite run_get with (v := _) by reflexivity
    | erewrite run_gget by reflexivity | erewrite run_gset by reflexivity
    | erewrite run_set by reflexivity
    | erewrite (@run_bin _ _ _ _ _ _ I32Mul) by reflexivity
    | erewrite (@run_bin _ _ _ _ _ _ I32Add) by reflexivity
    | erewrite (@run_bin _ _ _ _ _ _ I32Sub) by reflexivity ].

  Notation L := (@L X).
  Lemma at_total n x p pg f :
    call (S n) (at_ IdTotal) [] (L x p pg f) = Ok ([vi32 ((pg * 65536) mod 2 ^ 32)], L x p pg f).
  Proof.
    erewrite call_straight with (f := nth 1 boilerplate (WFn None None ft_empty [] []));
      [|apply fn_at; [apply fixed_in; simpl; tauto|reflexivity]|reflexivity|reflexivity].
    reflexivity.
  Qed.
  Lemma at_deallocate n x p pg f q b :
    call (S n) (at_ IdDeallocate) [q; vi32 b] (L x p pg f) = Ok ([], L x ((p - b) mod 2 ^ 32) pg f).
  Proof.
    erewrite call_straight with (f := nth 3 boilerplate (WFn None None ft_empty [] []));
      [|apply fn_at; [apply fixed_in; simpl; tauto|reflexivity]|reflexivity|reflexivity].
    reflexivity.
  Qed.
  Lemma at_grow n x p pg f : (0 <= pg <= 65536)%Z ->
    call (S n) (at_ IdGrow) [] (L x p pg f)
    = if (pg <? 65536)%Z then Ok ([], L x p (pg + 1) f) else Trap (L x p pg f).
  Proof.
    intros R. cbn [call_fn].
    rewrite (@fn_at (nth 0 boilerplate (WFn None None ft_empty [] [])) IdGrow); [|apply fixed_in; simpl; tauto|reflexivity].
    cbn [rget rbind resolve_fn fn_type fn_code nth boilerplate app w_type w_body w_locals ft_empty ft_in List.length Nat.eqb].
    set (b := [UBasic (BGlobal GGet g_growth); UBasic (BMemoryGrow 0); UBasic (BConst TI32 (2 ^ 32 - 1)); UBasic (BBinary I32Eq);
               UIf ft_empty [UBasic BUnreachable]
                 (Some [UBasic (BGlobal GGet g_total); UBasic (BGlobal GGet g_growth); UBasic (BBinary I32Add); UBasic (BGlobal GSet g_total)])]).
    change (structure_untyped _) with (structure_untyped (uflatten b)). rewrite NestingProofs.structure_untyped_flatten.
    unfold b, Semantics.run, invoke. cbn [run_seq run1 exec]. simpl.
    unfold mem_grow. cbn [ms_pages ms_max].
    destruct (Z.ltb_spec pg 65536) as [Lt|Ge].
    - destruct (Z.leb_spec (pg + 1) 65536); [|lia]. cbn -[Z.eqb Z.pow Z.modulo]. destruct (Z.eqb_spec pg (2 ^ 32 - 1)); [lia|]. cbn -[Z.pow Z.modulo].
      unfold set_globals, set_mem. cbn -[Z.pow Z.modulo]. rewrite Z.mod_small by lia. reflexivity.
    - destruct (Z.leb_spec (pg + 1) 65536); [lia|]. reflexivity.
  Qed.

  Definition grow_body : list uinstr :=
    [UBasic (BLocal LGet 2); UBasic (BCall (at_ IdTotal)); UBasic (BBinary I32GtU);
     UIf ft_empty [UBasic (BCall (at_ IdGrow)); UBasic (BBr 1)] None].
  Lemma type_total : ftype_of fs (at_ IdTotal) = Some (FT [] [t_i32]).
  Proof. apply (@ftype_at (nth 1 boilerplate (WFn None None ft_empty [] []))); [apply fixed_in; simpl; tauto|reflexivity]. Qed.
  Lemma type_grow : ftype_of fs (at_ IdGrow) = Some ft_empty.
  Proof. apply (@ftype_at (nth 0 boilerplate (WFn None None ft_empty [] []))); [apply fixed_in; simpl; tauto|reflexivity]. Qed.
  Lemma grow_loop lp n x f a b p after k pg : (0 <= after < 2 ^ 32)%Z -> (1 <= pg <= 65536)%Z -> (65536 - pg < Z.of_nat k)%Z ->
    run_iter (run num1 num2 (ftype_of fs) (call (S n)) lp grow_body) k 0 [] [] [a; b; vi32 after] (L x p pg f)
    = if (after <=? limit)%Z
      then if (pg <? 65536)%Z then next [] [a; b; vi32 after] (L x p (pages_for after pg) f)
           else run_iter (run num1 num2 (ftype_of fs) (call (S n)) lp grow_body) k 0 [] [] [a; b; vi32 after] (L x p pg f)
      else Trap (L x p 65536 f).
  Proof.
    intros Ra. revert pg. induction k as [|k IH]; intros pg Rp Rk; [lia|].
    destruct ((after <=? limit) && negb (pg <? 65536))%Z eqn:Skip.
    { apply andb_true_iff in Skip. destruct Skip as [-> S2]. apply negb_true_iff in S2. now rewrite S2. }
    cbn [run_iter]. unfold grow_body at 1. rewrite run_get with (v := vi32 after) by reflexivity.
    rewrite (@run_call X num1 num2 (ftype_of fs) (call (S n)) lp (at_ IdTotal) (FT [] [t_i32]) [] _ [vi32 after])
      by (apply type_total || reflexivity).
    rewrite at_total. cbn [rbind pushn rev app].
    rewrite (@run_bin X num1 num2 (ftype_of fs) (call (S n)) lp I32GtU after ((pg * 65536) mod 2 ^ 32) _ _ [] _ _ eq_refl).
    rewrite run_if_last. cbn [binop_out].
    assert (Exit : (after <=? (pg * 65536) mod 2 ^ 32)%Z = true -> (after <= limit)%Z -> (pg < 65536)%Z -> pages_for after pg = pg).
    { intros E La Lp. apply Z.leb_le in E. rewrite Z.mod_small in E by lia. unfold pages_for.
      assert ((after + 65535) / 65536 < pg + 1)%Z by (apply Z.div_lt_upper_bound; lia). lia. }
    unfold limit in *. apply andb_false_iff in Skip. rewrite negb_false_iff in Skip.
    destruct (Z.ltb_spec ((pg * 65536) mod 2 ^ 32) after) as [Lt|Ge].
    - cbn [Z.eqb].
      rewrite (@run_call X num1 num2 (ftype_of fs) (call (S n)) lp (at_ IdGrow) ft_empty [] _ [])
        by (apply type_grow || reflexivity).
      rewrite at_grow by lia.
      destruct (Z.ltb_spec pg 65536) as [Lp|Gp].
      + rewrite Z.mod_small in Lt by lia.
        cbn [rbind pushn rev app]. rewrite run_br. cbn [rbind rev app].
        change (popn 0 []) with (Some (@nil val, @nil val)). cbn [rget rbind].
        rewrite IH by lia. destruct (Z.leb_spec after (65535 * 65536)) as [La|La]; [|reflexivity].
        destruct (Z.ltb_spec (pg + 1) 65536) as [Lp'|]; [|lia].
        replace (pages_for after (pg + 1)) with (pages_for after pg); [reflexivity|].
        unfold pages_for. assert (pg + 1 <= (after + 65535) / 65536)%Z by (apply Z.div_le_lower_bound; lia). lia.
      + destruct (Z.leb_spec after (65535 * 65536)) as [La|La].
        * destruct Skip; discriminate.
        * cbn [rbind]. replace pg with 65536%Z by lia. reflexivity.
    - cbn [Z.eqb next rbind app].
      destruct (Z.leb_spec after (65535 * 65536)) as [La|La].
      + destruct (Z.ltb_spec pg 65536) as [Lp|Gp].
        * rewrite Exit; [reflexivity|apply Z.leb_le; lia|lia|lia].
        * destruct Skip; discriminate.
      + exfalso. destruct (Z.eq_dec pg 65536) as [->|].
        * change ((65536 * 65536) mod 2 ^ 32)%Z with 0%Z in Ge. lia.
        * rewrite Z.mod_small in Ge by lia. lia.
  Qed.
  Lemma at_allocate n x p pg f b : (0 <= p)%Z -> (0 <= b)%Z -> (1 <= pg <= 65535)%Z -> (65536 - pg < Z.of_nat n)%Z ->
    call (S n) (at_ IdAllocate) [vi32 b] (L x p pg f)
    = let after := ((p + b) mod 2 ^ 32)%Z in
      if (after <=? limit)%Z then Ok ([vi32 p], L x after (pages_for after pg) f) else Trap (L x p 65536 f).
  Proof.
    intros Hp Hb Rp Rn. cbn [call_fn].
    rewrite (@fn_at (nth 2 boilerplate (WFn None None ft_empty [] [])) IdAllocate); [|apply fixed_in; simpl; tauto|reflexivity].
    cbn [rget rbind resolve_fn fn_type fn_code nth boilerplate app w_type w_body w_locals ft_empty ft_in List.length Nat.eqb].
    set (bd := [UBasic (BGlobal GGet g_free); UBasic (BLocal LSet 1); UBasic (BGlobal GGet g_free); UBasic (BLocal LGet 0);
               UBasic (BBinary I32Add); UBasic (BLocal LSet 2); ULoop ft_empty grow_body;
               UBasic (BLocal LGet 2); UBasic (BGlobal GSet g_free); UBasic (BLocal LGet 1)]).
    change (structure_untyped _) with (structure_untyped (uflatten bd)). rewrite NestingProofs.structure_untyped_flatten.
    unfold bd, invoke. cbn [app map default_val].
    rewrite run_gget with (v := vi32 p) by reflexivity. rewrite run_set with (w := vi32 0) by reflexivity. cbn [set_nth].
    rewrite run_gget with (v := vi32 p) by reflexivity. rewrite run_get with (v := vi32 b) by reflexivity.
    rewrite (@run_bin X num1 num2 (ftype_of fs) _ _ I32Add p b _ _ [] _ _ eq_refl).
    cbn [binop_out]. rewrite run_set with (w := vi32 0) by reflexivity. cbn [set_nth].
    set (after := ((p + b) mod 2 ^ 32)%Z).
    assert (Ra : (0 <= after < 2 ^ 32)%Z) by (apply Z.mod_pos_bound; lia).
    rewrite run_loop_empty. destruct n as [|n]; [lia|]. rewrite grow_loop by (exact Ra || lia).
    destruct (Z.leb_spec after limit) as [La|La].
    - destruct (Z.ltb_spec pg 65536); [|lia]. reflexivity.
    - reflexivity.
  Qed.
  (** Address of slot [k] of [size] bytes. *)
  Definition addr (q k size : Z) : Z := ((q + (k * size) mod 2 ^ 32) mod 2 ^ 32)%Z.

  Ltac expand :=
    cbn [map w_body nth boilerplate app]; unfold ub, wget, wset, gget, gset, c32, bin, wb;
    cbn [map rb w_type w_locals ft_out ft_in List.length default_val app].
  Definition d_fn : wfn := WFn None None ft_empty [] [].
  Ltac at_fixed n := erewrite call_straight with (f := nth n boilerplate d_fn);
      [|apply fn_at; [apply fixed_in; simpl; tauto|reflexivity]|reflexivity|reflexivity].
  Lemma type_fixed k i : nth_error boilerplate k = Some (nth k boilerplate d_fn) -> w_id (nth k boilerplate d_fn) = Some i ->
    ftype_of fs (at_ i) = Some (w_type (nth k boilerplate d_fn)).
  Proof. intros E I. apply ftype_at; [|exact I]. apply fixed_in. now apply nth_error_In in E. Qed.
  Definition type_allocate := @type_fixed 2 IdAllocate eq_refl eq_refl.
  Definition type_deallocate := @type_fixed 3 IdDeallocate eq_refl eq_refl.
  Definition type_allocate_values := @type_fixed 4 IdAllocateValues eq_refl eq_refl.
  Definition type_deallocate_values := @type_fixed 5 IdDeallocateValues eq_refl eq_refl.
  Definition type_allocate_types := @type_fixed 6 IdAllocateTypes eq_refl eq_refl.
  Definition type_deallocate_types := @type_fixed 7 IdDeallocateTypes eq_refl eq_refl.
  Definition type_load := @type_fixed 8 IdLoad eq_refl eq_refl.
  Definition type_store := @type_fixed 9 IdStore eq_refl eq_refl.
  Definition type_store_type := @type_fixed 11 IdStoreType eq_refl eq_refl.

  Definition alloc_result (x : X) (p pg : Z) f (b : Z) : res store (list val * store) :=
    let after := ((p + b) mod 2 ^ 32)%Z in
    if (after <=? limit)%Z then Ok ([vi32 p], L x after (pages_for after pg) f) else Trap (L x p 65536 f).
  Lemma pass (m : res store (list val * store)) t :
    match m with Ok (vs, _) => List.length vs = 1 | _ => True end ->
    (let* (o, st, _, s') :=
       (let* (rs, s') := m in next (pushn rs []) t s') in
     let* (rs, rest) := rget (popn 1 st) in
     match o with
     | ONext => match rest with [] => Ok (rs, s') | _ => Stuck end
     | OBr O | ORet => Ok (rs, s')
     | OBr (S _) => Stuck
     end) = m.
  Proof. destruct m as [[[|v []] s]|s| |]; try discriminate; reflexivity. Qed.
  Lemma at_allocate_sized size i n x p pg f c :
    (i = IdAllocateValues /\ size = 8 \/ i = IdAllocateTypes /\ size = 4)%Z ->
    (0 <= p)%Z -> (1 <= pg <= 65535)%Z -> (65536 - pg < Z.of_nat n)%Z ->
    call (S (S n)) (at_ i) [vi32 c] (L x p pg f) = alloc_result x p pg f ((c * size) mod 2 ^ 32)%Z.
  Proof.
    intros Hk Hp Rp Rn.
    assert (R : forall b, call (S n) (at_ IdAllocate) [vi32 (b mod 2 ^ 32)%Z] (L x p pg f) = alloc_result x p pg f (b mod 2 ^ 32)%Z).
    { intros b. apply at_allocate; try assumption. apply Z.mod_pos_bound. lia. }
    destruct Hk as [(-> & ->)|(-> & ->)].
    - at_fixed 4. rewrite <- R. unfold invoke.
      expand.
      rewrite run_get with (v := vi32 c) by reflexivity. rewrite run_gget with (v := vi32 8) by reflexivity.
      rewrite (@run_bin X num1 num2 (ftype_of fs) _ _ I32Mul c 8 _ _ [] _ _ eq_refl).
      cbn [binop_out]. change [VNum TI32 ((c * 8) mod 2 ^ 32)%Z] with (pushn [vi32 ((c * 8) mod 2 ^ 32)%Z] []).
      rewrite run_call with (ft := FT [t_i32] [t_i32]) by (apply type_allocate || reflexivity).
      apply pass. rewrite R. unfold alloc_result. destruct (_ <=? _)%Z; [reflexivity|exact I].
    - at_fixed 6. rewrite <- R. unfold invoke.
      expand.
      rewrite run_get with (v := vi32 c) by reflexivity. rewrite run_gget with (v := vi32 4) by reflexivity.
      rewrite (@run_bin X num1 num2 (ftype_of fs) _ _ I32Mul c 4 _ _ [] _ _ eq_refl).
      cbn [binop_out]. change [VNum TI32 ((c * 4) mod 2 ^ 32)%Z] with (pushn [vi32 ((c * 4) mod 2 ^ 32)%Z] []).
      rewrite run_call with (ft := FT [t_i32] [t_i32]) by (apply type_allocate || reflexivity).
      apply pass. rewrite R. unfold alloc_result. destruct (_ <=? _)%Z; [reflexivity|exact I].
  Qed.
  Lemma at_deallocate_values n x p pg f q c :
    call (S (S n)) (at_ IdDeallocateValues) [q; vi32 c] (L x p pg f) = Ok ([], L x ((p - (c * 8) mod 2 ^ 32) mod 2 ^ 32) pg f).
  Proof.
    at_fixed 5. unfold invoke. expand.
    rewrite run_get with (v := q) by reflexivity. rewrite run_get with (v := vi32 c) by reflexivity.
    rewrite run_gget with (v := vi32 8) by reflexivity.
    rewrite (@run_bin X num1 num2 (ftype_of fs) _ _ I32Mul c 8 _ _ [q] _ _ eq_refl).
    cbn [binop_out]. change [VNum TI32 ((c * 8) mod 2 ^ 32)%Z; q] with (pushn [q; vi32 ((c * 8) mod 2 ^ 32)%Z] []).
    rewrite run_call with (ft := FT [t_i32; t_i32] []) by (apply type_deallocate || reflexivity).
    rewrite at_deallocate. reflexivity.
  Qed.
  Lemma at_deallocate_types n x p pg f q c :
    call (S (S n)) (at_ IdDeallocateTypes) [q; vi32 c] (L x p pg f) = Ok ([], L x ((p - (c * 4) mod 2 ^ 32) mod 2 ^ 32) pg f).
  Proof.
    at_fixed 7. unfold invoke. expand.
    rewrite run_get with (v := q) by reflexivity. rewrite run_get with (v := vi32 c) by reflexivity.
    rewrite run_gget with (v := vi32 4) by reflexivity.
    rewrite (@run_bin X num1 num2 (ftype_of fs) _ _ I32Mul c 4 _ _ [q] _ _ eq_refl).
    cbn [binop_out]. change [VNum TI32 ((c * 4) mod 2 ^ 32)%Z; q] with (pushn [q; vi32 ((c * 4) mod 2 ^ 32)%Z] []).
    rewrite run_call with (ft := FT [t_i32; t_i32] []) by (apply type_deallocate || reflexivity).
    rewrite at_deallocate. reflexivity.
  Qed.
  Definition load_result (x : X) (p pg : Z) f a : res store (list val * store) :=
    if (a + 8 <=? pg * 65536)%Z then Ok ([vi64 (le_read f a 8)], L x p pg f) else Trap (L x p pg f).
  Definition store_result (x : X) (p pg : Z) f a z : res store (list val * store) :=
    if (a + 8 <=? pg * 65536)%Z then Ok ([], L x p pg (le_write f a 8 z)) else Trap (L x p pg f).
  Lemma at_load n x p pg f q k :
    call (S n) (at_ IdLoad) [vi32 q; vi32 k] (L x p pg f) = load_result x p pg f (addr q k 8).
  Proof.
    at_fixed 8. unfold load_result, addr. set (a := ((q + (k * 8) mod 2 ^ 32) mod 2 ^ 32)%Z).
    unfold invoke, Semantics.run. cbn -[Z.pow Z.modulo a Z.leb le_read Z.add Z.mul]. fold a.
    unfold mem_load. cbn -[Z.pow Z.modulo a Z.leb le_read Z.add Z.mul]. rewrite Z.add_0_r. unfold page_size. change (Z.of_nat 8) with 8%Z.
    destruct (a + 8 <=? pg * 65536)%Z; reflexivity.
  Qed.
  Lemma at_store n x p pg f q z k :
    call (S n) (at_ IdStore) [vi32 q; vi64 z; vi32 k] (L x p pg f) = store_result x p pg f (addr q k 8) z.
  Proof.
    at_fixed 9. unfold store_result, addr. set (a := ((q + (k * 8) mod 2 ^ 32) mod 2 ^ 32)%Z).
    unfold invoke, Semantics.run. cbn -[Z.pow Z.modulo a Z.leb le_write Z.add Z.mul]. fold a.
    unfold mem_store. cbn -[Z.pow Z.modulo a Z.leb le_write Z.add Z.mul]. rewrite Z.add_0_r. unfold page_size. change (Z.of_nat 8) with 8%Z.
    destruct (a + 8 <=? pg * 65536)%Z; reflexivity.
  Qed.
  Definition store_type_result (x : X) (p pg : Z) f a z : res store (list val * store) :=
    if (a + 4 <=? pg * 65536)%Z then Ok ([], L x p pg (le_write f a 4 z)) else Trap (L x p pg f).
  Lemma at_store_type n x p pg f q z k :
    call (S n) (at_ IdStoreType) [vi32 q; vi32 k; vi32 z] (L x p pg f) = store_type_result x p pg f (addr q k 4) z.
  Proof.
    at_fixed 11. unfold store_type_result, addr. set (a := ((q + (k * 4) mod 2 ^ 32) mod 2 ^ 32)%Z).
    unfold invoke, Semantics.run. cbn -[Z.pow Z.modulo a Z.leb le_write Z.add Z.mul]. fold a.
    unfold mem_store. cbn -[Z.pow Z.modulo a Z.leb le_write Z.add Z.mul]. rewrite Z.add_0_r. unfold page_size. change (Z.of_nat 4) with 4%Z.
    destruct (a + 4 <=? pg * 65536)%Z; reflexivity.
  Qed.
  (** Exported functions, by name. *)
  Definition lib_call (n : nat) (name : string) (args : list val) (s : store) : res store (list val * store) :=
    let* i := rget (export_index 0 fs name) in call n i args s.
  Lemma lib_call_fn n f e args s : In f ws -> w_export f = Some e -> forallb straight (w_body f) = true ->
    List.length args = List.length (ft_in (w_type f)) ->
    lib_call (S n) e args s
    = invoke (run num1 num2 (ftype_of fs) (call n) n (map ub (w_body f))) (w_type f) (w_locals f) args s.
  Proof.
    intros I E S Ln. unfold lib_call. destruct (@fn_exported f e I E) as (k & -> & Nk). cbn [rget rbind].
    now apply call_straight.
  Qed.
  Lemma lib_load_type n x p pg f q k :
    lib_call (S n) "wastrumentation_stack_load_type" [vi32 q; vi32 k] (L x p pg f)
    = if (addr q k 4 + 4 <=? pg * 65536)%Z then Ok ([vi32 (le_read f (addr q k 4) 4)], L x p pg f) else Trap (L x p pg f).
  Proof.
    erewrite lib_call_fn with (f := nth 10 boilerplate d_fn); [|apply fixed_in; simpl; tauto|reflexivity..].
    unfold addr. set (a := ((q + (k * 4) mod 2 ^ 32) mod 2 ^ 32)%Z).
    unfold invoke, Semantics.run. cbn -[Z.pow Z.modulo a Z.leb le_read Z.add Z.mul]. fold a.
    unfold mem_load. cbn -[Z.pow Z.modulo a Z.leb le_read Z.add Z.mul]. rewrite Z.add_0_r. unfold page_size. change (Z.of_nat 4) with 4%Z.
    destruct (a + 4 <=? pg * 65536)%Z; reflexivity.
  Qed.
  Lemma lib_store_type n x p pg f q k z :
    lib_call (S n) "wastrumentation_stack_store_type" [vi32 q; vi32 k; vi32 z] (L x p pg f)
    = store_type_result x p pg f (addr q k 4) z.
  Proof.
    erewrite lib_call_fn with (f := nth 11 boilerplate d_fn); [|apply fixed_in; simpl; tauto|reflexivity..].
    rewrite <- (@at_store_type n). symmetry. apply call_straight; [|reflexivity..].
    apply fn_at; [apply fixed_in; simpl; tauto|reflexivity].
  Qed.
End Lib.
