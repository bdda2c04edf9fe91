(** C95: exact numbers of copies for the vectors programs mostly make: short
    ones, and collected ones with elements added in front. *)
From Coq Require Import List Arith Lia Bool.
From Verif Require Import Base ListFacts PvecModel PvecSpec PvecFacts CopyModel CopySpec CopyProps.
Import ListNotations.
Open Scope outcome_scope.
Set Implicit Arguments.
Local Transparent BRANCHING_FACTOR LEAF_CAPACITY ADAPTIVE_INLINE_SIZE.

Section Exact.
Context {T : Type}.
Notation node := (node T).
Notation tree := (tree T).
Notation pvec := (pvec T).

(** ** Trees all of whose leaves hold exactly 64 elements *)

Inductive packed : node -> Prop :=
| packed_leaf es : length es = 64 -> packed (Leaf es)
| packed_branch cs sz : cs <> [] -> (forall c, In c cs -> packed c) -> packed (Branch cs sz).

Lemma packed_update n : packed n -> node_ok n -> forall i, i < esize n -> node_update_copies n i = 64.
Proof.
  induction 1 as [es He|cs sz Hne Hc IH]; intros Hok i Hi; cbn [node_update_copies]; [exact He|].
  apply node_ok_branch_inv in Hok as (_ & Hok & ->). cbn [find_child].
  destruct (scan0 cs i) as [[_ (k & j & c & E & Hk & Hj & _)]|[Hge _]].
  - rewrite E, nth_error_map, Hk. cbn [option_map].
    apply IH; auto; [eapply nth_error_In; eauto|].
    rewrite Forall_forall in Hok. apply Hok. eapply nth_error_In; eauto.
  - unfold esize in Hi. cbn [elems] in Hi. lia.
Qed.

Lemma packed_pop_back n : packed n -> node_pop_back_copies n = 64.
Proof.
  induction 1 as [es He|cs sz Hne Hc IH]; cbn [node_pop_back_copies]; [exact He|].
  rewrite nth_error_map. destruct (nth_error cs (length cs - 1)) as [c|] eqn:E; cbn [option_map].
  - apply IH. eapply nth_error_In; eauto.
  - apply nth_error_None in E. destruct cs; [easy|cbn [length] in E; lia].
Qed.

Lemma packed_pop_front n : packed n -> node_pop_front_copies n = 64.
Proof.
  induction 1 as [es He|cs sz Hne Hc IH]; cbn [node_pop_front_copies]; [exact He|].
  destruct cs as [|c cs]; [easy|]. apply IH. now left.
Qed.

Lemma packed_pops n : packed n -> node_ok n ->
  exists n' x, node_pop_front n = Ret (Some (n', x)) /\ calculate_size n' <> 0.
Proof.
  induction 1 as [es He|cs sz Hne Hc IH]; intros Hok; cbn [node_pop_front].
  - destruct es as [|x es]; [discriminate|]. exists (Leaf es), x. split; auto.
    cbn [calculate_size length] in *. lia.
  - apply node_ok_branch_inv in Hok as (_ & Hok & ->). destruct cs as [|c cs]; [easy|].
    destruct (IH c) as (n' & x & E & Hs); [now left|now inversion Hok|].
    rewrite E. cbn [obind]. destruct (Nat.eqb_spec (calculate_size n') 0) as [|_]; [contradiction|].
    do 2 eexists. split; [reflexivity|]. cbn. lia.
Qed.

Lemma packed_split n : packed n -> node_ok n -> forall h i,
  split_along_path_copies n (find_path_to_index h n i) = 64.
Proof.
  assert (H0 : forall n, packed n -> split_along_path_copies n [] = 64).
  { induction 1 as [es He|cs sz Hne Hc IH]; cbn [split_along_path_copies]; [exact He|].
    destruct cs as [|c cs]; [easy|]. apply IH. now left. }
  induction 1 as [es He|cs sz Hne Hc IH]; intros Hok h i; cbn [split_along_path_copies]; [exact He|].
  apply node_ok_branch_inv in Hok as (_ & Hok & ->). destruct h as [|h]; cbn [find_path_to_index].
  { destruct cs as [|c cs]; [easy|]. apply H0, Hc. now left. }
  cbn [find_child_relaxed].
  assert (Hp : exists k j c, match scan_sizes (map esize cs) i 0 0 with Some p => p | None => (0, 0) end
                 = (k, j) /\ nth_error cs k = Some c).
  { destruct (scan0 cs i) as [[_ (k & j & c & E & Hk & Hj & _)]|[_ E]]; rewrite E; [eauto|].
    destruct cs as [|c cs]; [easy|]. exists 0, 0, c. auto. }
  destruct Hp as (k & j & c & -> & Hk). cbn iota.
  rewrite nth_error_map, Hk. cbn [option_map]. apply IH; [eapply nth_error_In; eauto|].
  rewrite Forall_forall in Hok. apply Hok. eapply nth_error_In; eauto.
Qed.

Lemma build_packed fuel nodes :
  nodes <> [] -> length nodes <= fuel -> (forall c, In c nodes -> packed c) ->
  packed (fst (build_tree_recursive fuel nodes)).
Proof.
  revert nodes. induction fuel as [|fuel IH]; intros nodes Hne Hl H.
  { destruct nodes; [easy|cbn [length] in Hl; lia]. }
  destruct nodes as [|a [|b r]]; [easy|cbn [build_tree_recursive fst]; apply H; now left|].
  cbn [build_tree_recursive]. set (nodes := a :: b :: r) in *.
  destruct (build_next_shorter nodes) as [L1 L2]; [cbn [length nodes]; lia|].
  specialize (IH (map make_relaxed (chunks BRANCHING_FACTOR nodes))).
  destruct (build_tree_recursive fuel _) as [root h]. cbn [fst] in *. apply IH.
  - intros E. rewrite E in L1. cbn [length] in L1. lia.
  - lia.
  - intros c Hc. apply in_map_iff in Hc. destruct Hc as (ch & <- & Hin).
    unfold make_relaxed. constructor.
    + pose proof (chunks_bounds nodes (k:=BRANCHING_FACTOR) ltac:(unfold BRANCHING_FACTOR; lia)) as Hb.
      rewrite Forall_forall in Hb. apply Hb in Hin. intros ->. cbn [length] in Hin. lia.
    + intros d Hd. apply H.
      rewrite <- (chunks_concat nodes (k:=BRANCHING_FACTOR)) by (unfold BRANCHING_FACTOR; lia).
      apply in_concat. eauto.
Qed.

(** What collecting more than 64 elements builds *)
Lemma collected l : 64 < length l ->
  let t := from_elements l in
  packed (t_root t) /\ node_ok (t_root t) /\ esize (t_root t) = 64 * (length l / 64) /\
  length (t_tail t) = length l mod 64 /\ t_head t = [] /\ t_len t = length l /\
  (length l / 64 = 1 -> exists es, t_root t = Leaf es /\ t_height t = 0) /\
  (2 <= length l / 64 -> exists cs sz, t_root t = Branch cs sz) /\
  (2 <= length l / 64 <= 32 ->
     exists cs, t_root t = make_relaxed (map Leaf cs) /\ t_height t = 1 /\
       length cs = length l / 64 /\ (forall c, In c cs -> length c = 64)).
Proof.
  intros Hl. cbv zeta.
  pose proof (Nat.div_mod (length l) 64 ltac:(lia)) as Hdm.
  pose proof (Nat.mod_upper_bound (length l) 64 ltac:(lia)) as Hm.
  set (full := length l / 64) in *. set (r := length l mod 64) in *.
  assert (Hfull : 1 <= full) by lia.
  destruct (from_elements_ok l) as [[Hok Hlen] Hel].
  assert (Hchunks : length (chunks 64 (firstn (full * 64) l)) = full).
  { rewrite chunks_length, firstn_length by lia.
    replace (Nat.min (full * 64) (length l)) with (full * 64) by lia.
    symmetry. apply (Nat.div_unique _ 64 full 63); lia. }
  assert (Hsz : forall c, In c (chunks 64 (firstn (full * 64) l)) -> length c = 64).
  { intros c Hc. apply In_nth_error in Hc. destruct Hc as [j Hj].
    assert (j < full) by (rewrite <- Hchunks; apply nth_error_Some; congruence).
    apply chunks_nth in Hj; [|lia]. rewrite Hj, firstn_length, skipn_length, firstn_length. lia. }
  assert (Hne : firstn (full * 64) l <> []).
  { intros E. apply (f_equal (@length T)) in E. rewrite firstn_length in E. cbn [length] in E. lia. }
  assert (Ht : from_elements l =
    let '(root, h) := build_tree_recursive full (map Leaf (chunks 64 (firstn (full * 64) l))) in
    mkTree root (skipn (full * 64) l) [] h (length l)).
  { unfold from_elements, build_tree_with_tail, LEAF_CAPACITY.
    destruct (Nat.leb_spec (length l) 64); [lia|]. fold full.
    destruct (firstn (full * 64) l) as [|x xs] eqn:E; [congruence|].
    rewrite map_length, Hchunks. reflexivity. }
  assert (Htail : t_tail (from_elements l) = skipn (full * 64) l /\ t_head (from_elements l) = [] /\
    t_root (from_elements l) = fst (build_tree_recursive full (map Leaf (chunks 64 (firstn (full * 64) l))))
    /\ t_height (from_elements l) = snd (build_tree_recursive full (map Leaf (chunks 64 (firstn (full * 64) l))))
    /\ t_len (from_elements l) = length l).
  { rewrite Ht. destruct (build_tree_recursive full _) as [root h]. cbn. auto. }
  destruct Htail as (E1 & E2 & E3 & E4 & E5).
  set (cs := chunks 64 (firstn (full * 64) l)) in *.
  assert (Hlt : length (t_tail (from_elements l)) = r) by (rewrite E1, skipn_length; lia).
  assert (Hpk : packed (t_root (from_elements l))).
  { rewrite E3. apply build_packed.
    - intros E. apply (f_equal (@length node)) in E. rewrite map_length in E. cbn [length] in E. lia.
    - rewrite map_length. lia.
    - intros c Hc. apply in_map_iff in Hc. destruct Hc as (ch & <- & Hin). constructor. auto. }
  split; [exact Hpk|]. split; [exact Hok|]. split.
  { apply (f_equal (@length T)) in Hel. unfold tree_elems in Hel. rewrite E2 in Hel.
    cbn [app] in Hel. rewrite app_length in Hel. fold (esize (t_root (from_elements l))) in Hel. lia. }
  split; [exact Hlt|]. split; [exact E2|]. split; [exact E5|].
  split; [|split].
  - intros F1. rewrite E3, E4. rewrite F1 in *. destruct cs as [|c [|d cs']]; cbn [length] in *; try lia.
    cbn. eauto.
  - intros F2. rewrite E3. clear - Hchunks F2.
    destruct full as [|full]; [lia|]. destruct cs as [|c [|d cs']]; cbn [length] in *; try lia.
    cbn [map build_tree_recursive]. set (nodes := map make_relaxed _).
    assert (Hb : forall fuel (nodes : list node), nodes <> [] -> length nodes <= fuel ->
              (forall c, In c nodes -> exists cs sz, c = Branch cs sz) ->
              exists cs sz, fst (build_tree_recursive fuel nodes) = Branch cs sz).
    { clear. induction fuel as [|fuel IH]; intros nodes Hne Hl H.
      { destruct nodes; [easy|cbn [length] in Hl; lia]. }
      destruct nodes as [|a [|b r]]; [easy|apply H; now left|].
      cbn [build_tree_recursive]. set (nodes := a :: b :: r) in *.
      destruct (build_next_shorter nodes) as [L1 L2]; [cbn [length nodes]; lia|].
      specialize (IH (map make_relaxed (chunks BRANCHING_FACTOR nodes))).
      destruct (build_tree_recursive fuel _) as [root h]. cbn [fst] in *. apply IH.
      - intros E. rewrite E in L1. cbn [length] in L1. lia.
      - lia.
      - intros e He. apply in_map_iff in He. destruct He as (ch & <- & Hin). unfold make_relaxed. eauto. }
    specialize (Hb full nodes).
    destruct (build_next_shorter (Leaf c :: Leaf d :: map Leaf cs')) as [L1 L2]; [cbn [length]; lia|].
    fold nodes in L1, L2. cbn [length] in L2. rewrite map_length in L2.
    destruct (build_tree_recursive full nodes) as [root h]. cbn [fst] in *. apply Hb.
    + intros E. rewrite E in L1. cbn [length] in L1. lia.
    + lia.
    + intros e He. apply in_map_iff in He. destruct He as (ch & <- & Hin). unfold make_relaxed. eauto.
  - intros F2. exists cs. rewrite E3, E4.
    assert (Hb : build_tree_recursive full (map Leaf cs) = (make_relaxed (map Leaf cs), 1)).
    { destruct full as [|[|full]]; [lia|lia|].
      destruct cs as [|c [|d cs']] eqn:Ecs; cbn [length] in Hchunks; try lia.
      assert (Hch : chunks BRANCHING_FACTOR (map (@Leaf T) cs) = [map Leaf cs]).
      { pose proof (chunks_length (map (@Leaf T) cs) (k:=BRANCHING_FACTOR) ltac:(unfold BRANCHING_FACTOR; lia)) as Hcl.
        pose proof (chunks_concat (map (@Leaf T) cs) (k:=BRANCHING_FACTOR) ltac:(unfold BRANCHING_FACTOR; lia)) as Hcc.
        rewrite map_length, Ecs in Hcl. cbn [length] in Hcl. unfold BRANCHING_FACTOR in *.
        replace ((S (S (length cs')) + 32 - 1) / 32) with 1 in Hcl
          by (apply (Nat.div_unique _ 32 1 (S (S (length cs')) - 1)); lia).
        rewrite Ecs in Hcc |- *. revert Hcl Hcc.
        generalize (chunks 32 (map (@Leaf T) (c :: d :: cs'))). intros [|x [|y z]] Hcl Hcc; cbn [length] in Hcl; try lia.
        cbn [concat] in Hcc. rewrite app_nil_r in Hcc. now rewrite Hcc. }
      rewrite Ecs in Hch. cbn [map] in Hch |- *. cbn [build_tree_recursive]. rewrite Hch. reflexivity. }
    rewrite Hb. cbn [fst snd]. auto.
Qed.

Lemma prefixed (pre l : list T) : 64 < length l -> length pre <= 64 ->
  let v := fold_left pv_push_front pre (pv_from_iter l) in
  let t := from_elements l in
  inner v = Tree (mkTree (t_root t) (t_tail t) (rev pre) (t_height t) (length pre + length l)) /\
  pv_len v = length pre + length l.
Proof.
  intros Hl. cbv zeta. induction pre as [|x pre IH] using rev_ind; intros Hp.
  - destruct (collected l Hl) as (_ & _ & _ & _ & Hh & Hn & _). cbn [fold_left rev length].
    unfold pv_from_iter, ADAPTIVE_INLINE_SIZE. destruct (Nat.leb_spec (length l) 64); [lia|].
    cbn [inner pv_len]. split; auto. rewrite Nat.add_0_l, <- Hn at 1.
    destruct (from_elements l); cbn in *. now subst.
  - rewrite app_length in Hp |- *. cbn [length] in Hp |- *.
    destruct IH as [E1 E2]; [lia|]. rewrite fold_left_app. cbn [fold_left].
    unfold pv_push_front at 1 3. rewrite E1. unfold pv_tree_push_front, tree_push_front, tree_push_front_head.
    cbn [t_head inner pv_len]. rewrite rev_length. change LEAF_CAPACITY with 64.
    destruct (Nat.ltb_spec (length pre) 64); [|lia]. cbn [t_root t_tail t_head t_height t_len].
    rewrite rev_app_distr, E2. cbn [rev app].
    split; [|lia]. do 2 f_equal. lia.
Qed.

(** ** Theorems *)

(** A short vector is one buffer, which every operation copies. *)
Theorem C95_short : forall (l : list T) i x,
  length l <= 64 ->
  let v := pv_from_iter l in
  let n := length l in
  pv_push_back_copies v = n /\ pv_push_front_copies v = n /\ pv_update_copies v i = n /\
  pv_pop_back_copies v = (if n =? 0 then 0 else n + 1) /\
  pv_pop_front_copies v = Ret n /\
  pv_split_at_copies v i = n /\ pv_take_copies v i = n /\
  pv_skip_copies v i = (if n <=? i then 0 else n) /\
  pv_insert_copies v i x = Ret (if (n <=? i) || (i =? 0) then n
                                else 2 * n + i + 1 + (if n =? 64 then 66 else 0)) /\
  pv_remove_copies v i = Ret (if (n <=? i) || (n =? 1) then 0
                              else n + (if i + 1 =? n then 0 else n - i) + (n - 1)).
Proof.
  intros l i x Hl. cbv zeta.
  assert (E : pv_from_iter l = mkPvec (Inline l) (length l) 0).
  { unfold pv_from_iter, ADAPTIVE_INLINE_SIZE. now destruct (Nat.leb_spec (length l) 64); [|lia]. }
  rewrite E.
  assert (Hpb : forall (es : list T) m g, length es <= 64 -> pv_push_back_copies (mkPvec (Inline es) m g) = length es).
  { intros es m g He. unfold pv_push_back_copies. cbn [inner]. unfold ADAPTIVE_INLINE_SIZE.
    destruct (_ <? _); [reflexivity|]. destruct (from_small es He) as [E1 E2]. rewrite E1, E2.
    unfold tree_push_back_copies. cbn. lia. }
  assert (Hpf : pv_push_front_copies (mkPvec (Inline l) (length l) 0) = length l).
  { unfold pv_push_front_copies. cbn [inner]. unfold ADAPTIVE_INLINE_SIZE.
    destruct (_ <? _); [reflexivity|]. destruct (from_small l Hl) as [E1 E2]. rewrite E1, E2.
    unfold tree_push_front_copies. cbn. lia. }
  assert (Hcl : forall (es : list T), length es <= 64 -> pv_from_iter_copies es = 0).
  { intros es He. rewrite C95_collect. destruct (Nat.leb_spec (length es) 64); lia. }
  split; [auto|]. split; [auto|].
  split. { unfold pv_update_copies, pv_clone_copies. cbn [inner pv_len]. now destruct (_ <=? _). }
  split. { unfold pv_pop_back_copies, pv_is_empty. cbn [inner pv_len].
           destruct l; cbn [length Nat.eqb]; lia. }
  split. { unfold pv_pop_front_copies, pv_is_empty. cbn [inner pv_len].
           destruct l; cbn [length Nat.eqb]; reflexivity. }
  assert (Hsp : pv_split_at_copies (mkPvec (Inline l) (length l) 0) i = length l).
  { unfold pv_split_at_copies, pv_clone_copies. cbn [inner pv_len].
    destruct (_ <=? _); [reflexivity|]. now destruct (_ =? _). }
  split; [exact Hsp|].
  split. { unfold pv_take_copies, pv_clone_copies. cbn [inner pv_len]. rewrite Hsp. now destruct (_ <=? _). }
  split. { unfold pv_skip_copies. cbn [inner pv_len]. rewrite Hsp. reflexivity. }
  split.
  - unfold pv_insert_copies. cbn [pv_len]. rewrite Hsp, Hpb, Hpf by auto.
    destruct (Nat.leb_spec (length l) i) as [H|H]; [reflexivity|].
    destruct (Nat.eqb_spec i 0) as [H0|H0]; [reflexivity|]. cbn [orb].
    unfold pv_split_at. cbn [pv_len inner].
    destruct (Nat.leb_spec (length l) i); [lia|].
    destruct (Nat.eqb_spec i 0); [lia|].
    assert (Ha : length (firstn i l) = i) by (rewrite firstn_length; lia).
    assert (Hb : length (skipn i l) = length l - i) by apply skipn_length.
    cbn [obind fst snd]. rewrite Hpb by lia. rewrite Ha. f_equal.
    unfold pv_push_back. cbn [inner]. rewrite Ha. change ADAPTIVE_INLINE_SIZE with 64.
    destruct (Nat.ltb_spec i 64); [|lia]. unfold pv_concat_copies. cbn [inner].
    rewrite C95_collect, !app_length, Ha, Hb. cbn [length].
    destruct (Nat.leb_spec (i + 1 + (length l - i)) 64); destruct (Nat.eqb_spec (length l) 64); try lia.
    replace (i + 1 + (length l - i)) with 65 by lia. change (65 mod 64) with 1. lia.
  - unfold pv_remove_copies. cbn [pv_len]. rewrite Hsp.
    destruct (Nat.leb_spec (length l) i) as [H|H]; [reflexivity|].
    destruct (Nat.eqb_spec (length l) 1) as [H1|H1]; [reflexivity|]. cbn [orb].
    assert (Hpair : exists a b g g', pv_split_at (mkPvec (Inline l) (length l) 0) i
              = Ret (mkPvec (Inline a) i g, mkPvec (Inline b) (length l - i) g')
              /\ length a = i /\ length b = length l - i).
    { unfold pv_split_at. cbn [pv_len inner].
      destruct (Nat.leb_spec (length l) i); [lia|].
      destruct (Nat.eqb_spec i 0) as [->|].
      - rewrite Nat.sub_0_r. exists [], l. do 2 eexists. split; [reflexivity|]. auto.
      - do 4 eexists. split; [reflexivity|]. rewrite firstn_length, skipn_length. lia. }
    destruct Hpair as (a & b & g & g' & -> & Ha & Hb). cbn [obind fst snd].
    unfold pv_skip, pv_skip_copies, pv_split_at, pv_split_at_copies. cbn [pv_len inner].
    change (1 =? 0) with false. cbv iota.
    destruct (Nat.leb_spec (length l - i) 1) as [Hs|Hs]; cbn [omap obind snd].
    + f_equal. unfold pv_concat_copies. cbn [inner pv_new]. rewrite app_nil_r, Ha.
      rewrite Hcl by lia. destruct (Nat.eqb_spec (i + 1) (length l)); lia.
    + f_equal. unfold pv_concat_copies. cbn [inner]. rewrite Hcl; rewrite app_length, skipn_length; [|lia].
      destruct (Nat.eqb_spec (i + 1) (length l)); lia.
Qed.

(** A long vector collected from [l], with [pre] pushed in front: [h] elements
    in front, whole blocks of 64, and [r] elements behind them.  Every operation
    copies the two ends, some of them twice, and at most one block. *)
Theorem C95_long : forall (pre l : list T) i,
  64 < length l -> length pre <= 64 ->
  let v := fold_left pv_push_front pre (pv_from_iter l) in
  let h := length pre in
  let r := length l mod 64 in
  let inside := (h <? i) && (i <? h + 64 * (length l / 64)) in
  let n := h + length l in
  pv_push_back_copies v = h + r /\
  pv_push_front_copies v =
    (if h <? 64 then h + r else (if length l <? 128 then 128 else 64) + 2 * r) /\
  pv_update_copies v i =
    (if n <=? i then 0 else if inside || (i =? h) then 64 + h + r else h + r) /\
  pv_pop_back_copies v = (if 0 <? r then h + r else if h =? 0 then 65 else 0) /\
  pv_pop_front_copies v = Ret (if 0 <? h then h + r else 64 + r) /\
  pv_split_at_copies v i =
    (if (i =? 0) || (n <=? i) then 0
     else if inside then 64 + 2 * h + 2 * r else 2 * h + 2 * r) /\
  pv_take_copies v i = pv_split_at_copies v i /\
  pv_skip_copies v i = pv_split_at_copies v i.
Proof.
  intros pre l i Hl Hp. cbv zeta.
  destruct (prefixed pre l Hl Hp) as [Hi Hn]. set (v := fold_left _ _ _) in *.
  destruct (collected l Hl) as (Hpk & Hok & Hsz & Ht & _ & _ & H1 & H2 & _).
  set (t := from_elements l) in *.
  pose proof (Nat.div_mod (length l) 64 ltac:(lia)) as Hdm.
  pose proof (Nat.mod_upper_bound (length l) 64 ltac:(lia)) as Hm.
  set (full := length l / 64) in *. set (r := length l mod 64) in *.
  assert (Hr : length (rev pre) = length pre) by apply rev_length.
  split; [|split; [|split; [|split; [|split]]]].
  - unfold pv_push_back_copies, tree_push_back_copies. rewrite Hi. cbn [t_tail t_head].
    rewrite Hr, Ht. change LEAF_CAPACITY with 64. destruct (Nat.ltb_spec r 64); lia.
  - unfold pv_push_front_copies, tree_push_front_copies. rewrite Hi. cbn [t_tail t_head].
    rewrite Hr, Ht. change LEAF_CAPACITY with 64. destruct (Nat.ltb_spec (length pre) 64); [reflexivity|].
    unfold push_head_copies, push_head_to_tree. cbn [t_tail t_head t_root].
    destruct (rev pre) as [|y ys] eqn:E; [cbn [length] in *; lia|]. rewrite push_front_leaf_branch.
    cbn [t_tail t_head]. rewrite Hr, Ht. cbn [length].
    assert (Hc : push_leaf_copies (t_root t) = if length l <? 128 then 64 else 0).
    { destruct (Nat.ltb_spec (length l) 128).
      - destruct H1 as (es & E1 & _); [lia|]. rewrite E1 in Hpk |- *. inversion Hpk. assumption.
      - destruct H2 as (cs & sz & ->); [lia|]. cbn [push_leaf_copies node_clone_copies]. now destruct (_ <? _). }
    rewrite Hc. destruct (_ <? _); lia.
  - unfold pv_update_copies. rewrite Hn, Hi. unfold pv_clone_copies. rewrite Hi.
    destruct (Nat.leb_spec (length pre + length l) i); [reflexivity|].
    unfold tree_update_copies. cbn [t_len t_tail t_head t_root]. rewrite Hr, Ht.
    destruct (Nat.leb_spec (length pre + length l) i); [lia|].
    destruct (Nat.ltb_spec i (length pre)) as [Ha|Ha].
    { destruct (Nat.ltb_spec (length pre) i); [lia|]. destruct (Nat.eqb_spec i (length pre)); [lia|].
      reflexivity. }
    replace (length pre + length l - length pre - r) with (64 * full) by lia.
    destruct (Nat.ltb_spec (i - length pre) (64 * full)) as [Hb|Hb].
    + rewrite packed_update by (auto; lia).
      replace ((length pre <? i) && (i <? length pre + 64 * full) || (i =? length pre)) with true; [lia|].
      symmetry. apply orb_true_iff. rewrite andb_true_iff, !Nat.ltb_lt, Nat.eqb_eq. lia.
    + replace ((length pre <? i) && (i <? length pre + 64 * full) || (i =? length pre)) with false; [lia|].
      symmetry. apply orb_false_iff. rewrite andb_false_iff, !Nat.ltb_ge, Nat.eqb_neq. lia.
  - unfold pv_pop_back_copies, pv_is_empty. rewrite Hn, Hi.
    destruct (Nat.eqb_spec (length pre + length l) 0); [lia|].
    unfold tree_pop_back_copies. cbn [t_len t_tail t_head].
    destruct (Nat.eqb_spec (length pre + length l) 0); [lia|].
    destruct (t_tail t) as [|y ys] eqn:E.
    + cbn [length] in Ht. rewrite <- Ht. change (0 <? 0) with false. cbv iota.
      unfold pop_from_tree_copies. cbn [t_len t_tail t_head t_root]. cbn [length].
      rewrite Nat.sub_0_r, Hr. destruct (Nat.eqb_spec (length pre + length l) 0); [lia|].
      rewrite node_get_ok by exact Hok.
      destruct (Nat.eqb_spec (length pre) 0) as [E0|E0].
      * destruct (nth_error (elems (t_root t)) (length pre + length l - 1)) eqn:En.
        -- destruct (Nat.eqb_spec (length pre + length l) 1); [lia|].
           rewrite packed_pop_back by exact Hpk. lia.
        -- apply nth_error_None in En. unfold esize in Hsz. lia.
      * destruct (nth_error (elems (t_root t)) (length pre + length l - 1)) eqn:En; [|reflexivity].
        assert (length pre + length l - 1 < length (elems (t_root t))) by (apply nth_error_Some; congruence).
        unfold esize in Hsz. lia.
    + rewrite <- Ht, Hr. cbn [length]. change (0 <? S (length ys)) with true. cbv iota. lia.
  - unfold pv_pop_front_copies, pv_is_empty. rewrite Hn, Hi.
    destruct (Nat.eqb_spec (length pre + length l) 0); [lia|].
    unfold tree_pop_front_copies. cbn [t_len t_tail t_head].
    destruct (Nat.eqb_spec (length pre + length l) 0); [lia|].
    destruct (rev pre) as [|y ys] eqn:E.
    + cbn [length] in Hr. rewrite <- Hr. change (0 <? 0) with false. cbv iota.
      unfold pop_front_from_tree_copies. cbn [t_len t_tail t_head t_root]. cbn [length].
      rewrite Ht. destruct (Nat.ltb_spec 0 (0 + length l - 0 - r)); [|lia].
      destruct (packed_pops Hpk Hok) as (n' & x & -> & _). cbn [obind].
      rewrite packed_pop_front by exact Hpk. f_equal. lia.
    + rewrite <- Hr. cbn [length]. change (0 <? S (length ys)) with true. cbv iota. now rewrite Ht.
  - assert (Hs : pv_split_at_copies v i =
      (if (i =? 0) || (length pre + length l <=? i) then 0
       else if (length pre <? i) && (i <? length pre + 64 * full)
            then 64 + 2 * length pre + 2 * r else 2 * length pre + 2 * r)).
    { unfold pv_split_at_copies, pv_clone_copies. rewrite Hn, Hi.
      destruct (Nat.leb_spec (length pre + length l) i); [now rewrite orb_true_r|].
      rewrite orb_false_r. destruct (Nat.eqb_spec i 0); [reflexivity|].
      unfold tree_split_at_copies. cbn [t_len t_tail t_head t_root t_height]. rewrite Hr, Ht.
      destruct (Nat.eqb_spec i 0); [lia|].
      destruct (Nat.leb_spec (length pre + length l) i); [lia|].
      destruct (Nat.leb_spec i (length pre)) as [Ha|Ha].
      { destruct (Nat.ltb_spec (length pre) i); [lia|]. cbn [andb].
        rewrite firstn_length, skipn_length. lia. }
      destruct (Nat.ltb_spec (length pre) i); [|lia]. cbn [andb].
      replace (length pre + (length pre + length l - length pre - r)) with (length pre + 64 * full) by lia.
      destruct (Nat.leb_spec (length pre + 64 * full) i);
        destruct (Nat.ltb_spec i (length pre + 64 * full)); try lia.
      - rewrite firstn_length, skipn_length, Ht. lia.
      - rewrite packed_split by auto. lia. }
    rewrite Hs. split; [reflexivity|].
    unfold pv_take_copies, pv_skip_copies, pv_clone_copies. rewrite Hn, Hi, Hs.
    destruct (Nat.leb_spec (length pre + length l) i); rewrite ?orb_true_r; auto.
Qed.

(** Joining.  Two short vectors are collected anew; a short one and a single
    block are both copied twice more; of two longer ones the block at the seam
    is merged with its neighbour, and the loose ends are copied three times. *)
Theorem C95_join : forall a b : list T,
  let ra := length a mod 64 in
  let rb := length b mod 64 in
  let copies := pv_concat_copies (pv_from_iter a) (pv_from_iter b) in
  (length a <= 64 -> length b <= 64 ->
     copies = length a + length b
       + (if length a + length b <=? 64 then 0
          else length a + length b + (length a + length b) mod 64)) /\
  (a = [] -> 64 < length b -> copies = rb) /\
  (64 < length a -> b = [] -> copies = ra) /\
  (1 <= length a <= 64 -> 64 < length b < 128 -> copies = 3 * length a + 2 * length b) /\
  (64 < length a < 128 -> 1 <= length b <= 64 -> copies = 2 * ra + 64 + length b) /\
  (128 <= length a < 2048 -> 128 <= length b < 2112 ->
     copies = 3 * ra + 3 * rb + 2 * (64 + (if ra =? 0 then 64 else ra))).
Proof.
  intros a b. cbv zeta.
  assert (Hin : forall l : list T, length l <= 64 -> inner (pv_from_iter l) = Inline l).
  { intros l H. unfold pv_from_iter, ADAPTIVE_INLINE_SIZE. destruct (Nat.leb_spec (length l) 64); [reflexivity|lia]. }
  assert (Htr : forall l : list T, 64 < length l -> inner (pv_from_iter l) = Tree (from_elements l)).
  { intros l H. unfold pv_from_iter, ADAPTIVE_INLINE_SIZE. destruct (Nat.leb_spec (length l) 64); [lia|reflexivity]. }
  assert (Hdm : forall l : list T, length l = 64 * (length l / 64) + length l mod 64 /\ length l mod 64 < 64).
  { intros l. split; [apply Nat.div_mod; lia|apply Nat.mod_upper_bound; lia]. }
  split; [|split; [|split; [|split; [|split]]]].
  - intros Ha Hb. unfold pv_concat_copies. rewrite !Hin by auto. rewrite C95_collect, app_length. reflexivity.
  - intros -> Hb. unfold pv_concat_copies. rewrite Hin, Htr by (auto; cbn; lia).
    destruct (collected b Hb) as (_ & _ & _ & Ht & Hh & _). unfold tree_concat_copies, tree_clone_copies.
    rewrite Ht, Hh. cbn. lia.
  - intros Ha ->. unfold pv_concat_copies. rewrite (Hin []), (Htr a) by (auto; cbn; lia).
    destruct (collected a Ha) as (_ & _ & _ & Ht & Hh & Hn & _). unfold tree_concat_copies, tree_clone_copies.
    rewrite Hn. destruct (Nat.eqb_spec (length a) 0); [lia|]. rewrite Ht, Hh. cbn. lia.
  - intros Ha Hb. unfold pv_concat_copies. rewrite Hin, Htr by lia.
    destruct (from_small a) as [E1 E2]; [change LEAF_CAPACITY with 64; lia|]. rewrite E1, E2.
    destruct (collected b ltac:(lia)) as (Hpk & _ & _ & Ht & Hh & Hn & H1 & _).
    destruct (Hdm b) as [Hd Hm].
    destruct H1 as (es & Er & Eh); [lia|]. rewrite Er in Hpk. inversion Hpk as [es' He|]; subst es'.
    unfold tree_concat_copies. cbn [t_len]. rewrite Hn.
    destruct (Nat.eqb_spec (length a) 0); [lia|]. destruct (Nat.eqb_spec (length b) 0); [lia|].
    cbn [t_height]. rewrite Eh. change (0 =? 0) with true. cbv iota.
    unfold concat_same_height_copies, tree_clone_copies. cbn [t_tail t_head t_root]. rewrite Hh, Ht, Er.
    cbn [concat_nodes_copies length]. rewrite app_length, He. change LEAF_CAPACITY with 64.
    destruct (Nat.leb_spec (length a + 64) 64); lia.
  - intros Ha Hb. unfold pv_concat_copies. rewrite (Hin b), (Htr a) by lia.
    destruct (from_small b) as [E1 E2]; [change LEAF_CAPACITY with 64; lia|]. rewrite E1, E2.
    destruct (collected a ltac:(lia)) as (Hpk & _ & _ & Ht & Hh & Hn & H1 & _).
    destruct (Hdm a) as [Hd Hm].
    destruct H1 as (es & Er & Eh); [lia|]. rewrite Er in Hpk. inversion Hpk as [es' He|]; subst es'.
    unfold tree_concat_copies. cbn [t_len]. rewrite Hn.
    destruct (Nat.eqb_spec (length a) 0); [lia|]. destruct (Nat.eqb_spec (length b) 0); [lia|].
    cbn [t_height]. rewrite Eh. change (0 =? 0) with true. cbv iota.
    unfold concat_same_height_copies, tree_clone_copies. cbn [t_tail t_head t_root].
    destruct (t_tail (from_elements a)) as [|y ys] eqn:Et; [cbn [length] in Ht; lia|].
    unfold push_tail_copies, push_tail_to_tree. rewrite Et. cbn [t_tail t_head t_root].
    rewrite push_leaf_branch, Hh, Er. cbn [push_leaf push_leaf_copies node_clone_copies concat_nodes_copies].
    rewrite Ht, He. cbn [length]. lia.
  - intros Ha Hb. unfold pv_concat_copies. rewrite !Htr by lia.
    destruct (collected a ltac:(lia)) as (_ & _ & _ & Hta & Hha & Hna & _ & _ & Hra).
    destruct (collected b ltac:(lia)) as (_ & _ & _ & Htb & Hhb & Hnb & _ & _ & Hrb).
    destruct (Hdm a) as [Hda Hma]. destruct (Hdm b) as [Hdb Hmb].
    destruct Hra as (ca & Era & Eha & Hca & Hla); [lia|].
    destruct Hrb as (cb & Erb & Ehb & Hcb & Hlb); [lia|].
    unfold tree_concat_copies. rewrite Hna, Hnb, Eha, Ehb.
    destruct (Nat.eqb_spec (length a) 0); [lia|]. destruct (Nat.eqb_spec (length b) 0); [lia|].
    change (1 =? 1) with true. cbv iota.
    unfold concat_same_height_copies, tree_clone_copies. rewrite Hhb, Hha, Hta, Htb, Erb. cbn [length].
    destruct cb as [|fb cb]; [cbn [length] in Hcb; lia|].
    assert (Hfb : length fb = 64) by (apply Hlb; now left).
    assert (Hseam : forall cs (last : list T) sz,
      concat_nodes_copies (Branch (map Leaf cs ++ [Leaf last]) sz) (make_relaxed (map Leaf (fb :: cb)))
      = length last + 64 + (if length last =? 0 then 0 else length last + 64)).
    { intros cs last sz. unfold make_relaxed. cbn [concat_nodes_copies map].
      rewrite app_length, map_length. cbn [length].
      replace (length cs + 1 - 1) with (length (map (fun c => @concat_nodes_copies T c) (map Leaf cs)))
        by (rewrite !map_length; lia).
      rewrite map_app, nth_error_app2, Nat.sub_diag by lia. cbn [map nth_error].
      cbn [concat_nodes_copies]. rewrite app_length, Hfb. change LEAF_CAPACITY with 64.
      destruct (Nat.leb_spec (length last + 64) 64); destruct (Nat.eqb_spec (length last) 0); lia. }
    destruct (t_tail (from_elements a)) as [|y ys] eqn:Et.
    + cbn [length] in Hta. rewrite <- Hta. rewrite Era.
      destruct (exists_last (l:=ca)) as (ca' & la & Eca); [intros ->; cbn [length] in Hca; lia|].
      rewrite Eca, map_app. unfold make_relaxed at 1. cbn [map].
      rewrite Hseam. rewrite (Hla la) by (rewrite Eca; apply in_or_app; right; now left).
      change (0 =? 0) with true. change (64 =? 0) with false. cbv iota. rewrite Hha. cbn [length]. lia.
    + rewrite <- Hta. unfold push_tail_copies, push_tail_to_tree. rewrite Et. cbn [t_root t_head t_tail].
      rewrite push_leaf_branch, Hha, Era.
      unfold make_relaxed at 1 2. cbn [push_leaf push_leaf_copies]. rewrite map_length.
      change BRANCHING_FACTOR with 32. destruct (Nat.ltb_spec (length ca) 32); [|lia].
      rewrite Hseam. cbn [length Nat.eqb]. lia.
Qed.

End Exact.

(** Concrete cases *)
Example C95_short_case :
  let v := pv_from_iter (seq 0 64) in
  (pv_pop_back_copies v, pv_insert_copies v 10 7, pv_remove_copies v 10)
  = (65, Ret 205, Ret 181).
Proof. vm_compute. reflexivity. Qed.
Example C95_long_case :
  let v := fold_left pv_push_front (seq 0 5) (pv_from_iter (seq 0 200)) in
  (pv_push_back_copies v, pv_update_copies v 5, pv_pop_back_copies v, pv_pop_front_copies v,
   map (pv_split_at_copies v) [5; 6; 196; 197; 205])
  = (13, 77, 13, Ret 13, [26; 90; 90; 26; 0]).
Proof. vm_compute. reflexivity. Qed.
Example C95_join_case :
  (pv_concat_copies (pv_from_iter (seq 0 40)) (pv_from_iter (seq 0 100)),
   pv_concat_copies (pv_from_iter (seq 0 100)) (pv_from_iter (seq 0 40)),
   pv_concat_copies (pv_from_iter (seq 0 200)) (pv_from_iter (seq 0 130)))
  = (320, 176, 174).
Proof. vm_compute. reflexivity. Qed.

(** The last element left in the tree is cloned once; it is not popped a second time. *)
Theorem C95_last_one : forall T (v : pvec T) (t : tree T) x,
  pv_len v = 1 -> inner v = Tree t -> t_len t = 1 -> t_tail t = [] -> node_get (t_root t) 0 = Some x ->
  pv_pop_back_copies v = 1 + length (t_head t).
Proof.
  intros T v t x Hv Hi Hl Ht Hg. unfold pv_pop_back_copies, pv_is_empty. rewrite Hv, Hi. unfold tree_pop_back_copies.
  rewrite Hl, Ht. unfold pop_from_tree_copies. rewrite Hl, Ht. cbn [length Nat.sub Nat.eqb]. rewrite Hg. reflexivity.
Qed.
(** Taking 63 of 65 elements from the front and one from the back leaves such a vector; the one before it pops twice. *)
Example C95_last_one_case :
  let drop_front v := match pv_pop_front v with Ret (Some (v', _)) => v' | _ => v end in
  let drop_back v := match pv_pop_back v with Ret (Some (v', _)) => v' | _ => v end in
  let v n := drop_back (Nat.iter n drop_front (fold_left pv_push_back (seq 0 65) pv_new)) in
  (pv_len (v 62), pv_pop_back_copies (v 62), pv_len (v 63), pv_pop_back_copies (v 63)) = (2, 3, 1, 1).
Proof. vm_compute. reflexivity. Qed.

Print Assumptions C95_short.
Print Assumptions C95_long.
Print Assumptions C95_join.
Print Assumptions C95_last_one.
