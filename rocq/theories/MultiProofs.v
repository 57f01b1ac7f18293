(** Multicontours and polygons: sizes, supports, separation of the parts. *)
From Coq Require Import Sorting.Sorted.
From Verif Require Import Base Prog Geometry Ctx Utils Contracts Spec Factories Strategies QcTac ProgProofs GeomProofs
  ListProofs CompressProofs SegmentProofs EdgeProofs HelperProofs ReferenceProofs Triangulation QuadEdge QuadProofs TriProofs LoopProofs
  CarveProofs SeparationProofs PrimeProofs GridProofs ConvexProofs.

Lemma ForallOrdPairs_impl {A} (R R' : A -> A -> Prop) l : (forall x y, R x y -> R' x y) -> ForallOrdPairs R l -> ForallOrdPairs R' l.
Proof. intros H F. induction F as [|x l Hx F IH]; constructor; [|exact IH]. eapply Forall_impl; [|exact Hx]. auto. Qed.
Lemma b2z_range b : (0 <= b2z b <= 1)%Z.
Proof. destruct b; cbn; lia. Qed.
Lemma py_take_all {A} (l : list A) i : (lenZ l <= i)%Z -> py_take l i = l.
Proof. intros H. unfold lenZ in H. rewrite take_pos by lia. apply firstn_all2. lia. Qed.
Lemma py_take_length {A} (l : list A) i : (0 <= i)%Z -> lenZ (py_take l i) = Z.min i (lenZ l).
Proof. intros H. rewrite take_pos by lia. unfold lenZ. rewrite firstn_length. lia. Qed.
Lemma resorted (prior : option bool) k points :
  (forall k', prior = Some k' -> StronglySorted (kle k') points) ->
  let points' := if match prior with Some k' => Bool.eqb k k' | None => false end then points else sort_points k points in
  StronglySorted (kle k) points' /\ (forall p, In p points' <-> In p points) /\ (NoDup points -> NoDup points').
Proof.
  intros H. cbn zeta.
  assert (K : StronglySorted (kle k) (sort_points k points) /\ (forall p, In p (sort_points k points) <-> In p points)
              /\ (NoDup points -> NoDup (sort_points k points))).
  { split; [apply sort_points_sorted|]. split; [intros p; apply isort_in|apply isort_nodup]. }
  destruct prior as [k'|]; [|exact K]. destruct (Bool.eqb k k') eqn:E; [|exact K].
  apply Bool.eqb_prop in E. subst k'. split; [apply H; reflexivity|]. split; [reflexivity|auto].
Qed.

(** ** [to_multicontour] *)
Lemma multicontour_loop_spec ctx sizes : forall choices prior points result res,
  (forall s, In s sizes -> (1 <= s)%Z) -> (forall k, prior = Some k -> StronglySorted (kle k) points) ->
  multicontour_loop ctx sizes choices prior points result = Ok res ->
  exists new, res = result ++ new /\ (forall vs, In vs new -> incl vs points /\ 3 <= length vs) /\ ForallOrdPairs parted new.
Proof.
  induction sizes as [|size sizes IH]; intros choices prior points result res Hs Hp H.
  { cbn in H. injection H as <-. exists []. rewrite app_nil_r. split; [reflexivity|]. split; [intros vs []|constructor]. }
  destruct choices as [|k choices]; cbn [multicontour_loop] in H.
  { injection H as <-. exists []. rewrite app_nil_r. split; [reflexivity|]. split; [intros vs []|constructor]. }
  destruct (resorted prior k points Hp) as (S1 & I1 & _).
  set (points' := if (_ : bool) then points else sort_points k points) in *. clearbody points'.
  apply rbind_ok in H. destruct H as (vs & Hv & H).
  destruct (MIN_CONTOUR_SIZE <=? lenZ vs)%Z eqn:E.
  - apply rbind_ok in H. destruct H as (touch & _ & H).
    apply IH in H; [|intros s Hin; apply Hs; right; exact Hin|].
    + destruct H as (new & -> & Hn & Hf). exists (vs :: new). rewrite <- app_assoc. split; [reflexivity|].
      assert (Hvs : incl vs (py_take points' size)) by (intros p Hin; eapply to_vertex_sequence_in; eassumption).
      split.
      * intros ws [<- |Hw].
        -- split; [intros p Hin; apply I1; eapply py_take_in, Hvs, Hin|]. apply Z.leb_le in E. change MIN_CONTOUR_SIZE with 3%Z in E. unfold lenZ in E. lia.
        -- destruct (Hn ws Hw) as (Hi & Hl). split; [|exact Hl]. intros p Hin. apply I1. eapply py_drop_in, Hi, Hin.
      * constructor; [|exact Hf]. apply Forall_forall. intros ws Hw.
        eapply parted_incl; [apply (cut_parted k points' size (b2z touch) S1)|exact Hvs|apply Hn, Hw];
          [apply Hs; left; reflexivity|apply b2z_range].
    + intros k' Ek. injection Ek as <-. unfold py_drop. apply skipn_sorted, S1.
  - apply IH in H; [|intros s Hin; apply Hs; right; exact Hin|].
    + destruct H as (new & -> & Hn & Hf). exists new. split; [reflexivity|]. split; [|exact Hf].
      intros ws Hw. destruct (Hn ws Hw) as (Hi & Hl). split; [|exact Hl]. intros p Hin. apply I1, Hi, Hin.
    + intros k' Ek. injection Ek as <-. exact S1.
Qed.
Lemma to_multicontour_spec ctx points sizes choices mc : (forall s, In s sizes -> (1 <= s)%Z) ->
  to_multicontour ctx points sizes choices = Ok mc ->
  (forall vs, In vs mc -> incl vs points /\ 3 <= length vs) /\ ForallOrdPairs parted mc.
Proof.
  intros Hs H. unfold to_multicontour in H. apply multicontour_loop_spec in H; [|exact Hs|discriminate].
  destruct H as (new & -> & K). exact K.
Qed.

(** ** The sizes that are drawn. *)
Lemma set_nth_in {A} k (v : A) l x : In x (set_nth k v l) -> x = v \/ In x l.
Proof.
  revert k. induction l as [|y l IH]; intros k H; [destruct k; destruct H|]. destruct k as [|k]; cbn in *.
  - destruct H as [<- |H]; auto.
  - destruct H as [<- |H]; auto. destruct (IH k H); auto.
Qed.
Lemma set_nth_length {A} k (v : A) l : length (set_nth k v l) = length l.
Proof. revert k. induction l as [|y l IH]; intros k; [destruct k; reflexivity|]. destruct k; cbn; [reflexivity|]. f_equal. apply IH. Qed.
Lemma nth_ge (l : list Z) i m : (forall x, In x l -> (m <= x)%Z) -> i < length l -> (m <= nth i l 0)%Z.
Proof. intros H Hi. apply H, nth_In, Hi. Qed.
Lemma spread_ge n : forall i l m, (forall x, In x l -> (m <= x)%Z) -> i < length l -> forall x, In x (spread n i l) -> (m <= x)%Z.
Proof.
  induction n as [|n IH]; intros i l m H Hi x Hx; [apply H, Hx|]. cbn [spread] in Hx.
  apply (IH _ _ m) in Hx; [exact Hx| |].
  - intros y Hy. apply set_nth_in in Hy. destruct Hy as [-> |Hy]; [|apply H, Hy]. pose proof (nth_ge l i m H Hi). lia.
  - rewrite set_nth_length. apply Nat.mod_upper_bound. lia.
Qed.
Lemma spread_length n : forall i l, length (spread n i l) = length l.
Proof. induction n as [|n IH]; intros i l; [reflexivity|]. cbn [spread]. rewrite IH. apply set_nth_length. Qed.
Lemma spread_sizes_spec size m limit l : spread_sizes size m limit = Ok l ->
  lenZ l = Z.max size 0 /\ forall x, In x l -> (m <= x)%Z.
Proof.
  unfold spread_sizes. intros H.
  destruct ((size <=? 0)%Z && (0 <? Z.to_nat (limit - size * m))) eqn:E; [discriminate|]. injection H as <-.
  unfold lenZ. rewrite spread_length, repeat_length. split; [lia|].
  intros x Hx. destruct (Z_le_gt_dec size 0) as [Hs|Hs].
  - assert (Z.to_nat size = 0) as E1 by lia. rewrite E1 in Hx. cbn [repeat] in Hx.
    exfalso.
    assert (L : length (spread (Z.to_nat (limit - size * m)) 0 []) = 0) by (rewrite spread_length; reflexivity).
    destruct (spread _ 0 []); [destruct Hx|discriminate].
  - eapply spread_ge; [| |exact Hx].
    + intros y Hy. apply repeat_spec in Hy. lia.
    + rewrite repeat_length. lia.
Qed.
Lemma Forall2_map_in {A B C} (R : B -> C -> Prop) (f : A -> B) l : forall r, Forall2 R (map f l) r ->
  forall x, In x r -> exists y, In y l /\ R (f y) x.
Proof.
  induction l as [|y l IH]; intros r H x Hx; cbn in H; inversion H as [|? z ? r' H1 H2]; subst; [destruct Hx|].
  destruct Hx as [<- |Hx]; [exists y; split; [left; reflexivity|exact H1]|].
  destruct (IH r' H2 x Hx) as (w & Hw & Hr). exists w. split; [right; exact Hw|exact Hr].
Qed.
Lemma gen_sizes_seq m l r : generates (sequence (map (fun x => integers m (Some x)) l)) r -> forall x, In x r -> (m <= x)%Z.
Proof.
  intros H x Hx. apply gen_sequence in H. destruct (Forall2_map_in _ _ _ _ H x Hx) as (y & _ & Hy).
  apply gen_integers in Hy. apply Hy.
Qed.
Lemma to_sizes_ge size m limit r : generates (to_sizes_ size m limit) r -> forall x, In x r -> (m <= x)%Z.
Proof.
  intros H x Hx. unfold to_sizes_ in H. apply gen_bind in H. destruct H as (mx & _ & H).
  apply gen_bind in H. destruct H as (l & Hl & H). apply gen_permutations in H.
  eapply gen_sizes_seq; [exact Hl|]. eapply Permutation_in; [symmetry; exact H|exact Hx].
Qed.
Lemma hole_sizes_ge n m limit r : generates (to_hole_sizes_ n m limit) r -> forall x, In x r -> (m <= x)%Z.
Proof.
  intros H x Hx. unfold to_hole_sizes_ in H. destruct (n =? 0)%Z.
  - apply gen_ret in H. subst r. destruct Hx.
  - apply gen_bind in H. destruct H as (mx & _ & H). apply gen_bind in H. destruct H as (l & Hl & H).
    eapply gen_sizes_seq; [exact H|exact Hx].
Qed.
Lemma to_hole_sizes_ge points n mx m r : generates (to_hole_sizes points n mx m) r -> forall x, In x r -> (m <= x)%Z.
Proof.
  intros H x Hx. unfold to_hole_sizes in H. destruct (_ <=? _)%Z.
  - apply gen_bind in H. destruct H as (c & _ & H). eapply hole_sizes_ge; eassumption.
  - apply gen_ret in H. subst r. destruct Hx.
Qed.

Lemma multicontour_sizes_valid mc mn mx cmn cmx : multicontour_has_valid_sizes mc mn mx cmn cmx = true ->
  size_ok (lenZ mc) mn mx /\ forall vs : contour, In vs mc -> size_ok (lenZ vs) cmn cmx.
Proof.
  unfold multicontour_has_valid_sizes. rewrite andb_true_iff, size_valid, forallb_forall. intros (H1 & H2).
  split; [exact H1|]. intros vs Hv. apply size_valid, H2, Hv.
Qed.
Lemma multicontour_strategy_spec ctx xs ys mn mx cmn cmx mc : (1 <= cmn)%Z ->
  generates (to_multicontour_strategy ctx xs ys mn mx cmn cmx) mc ->
  size_ok (lenZ mc) mn mx /\ (forall vs : contour, In vs mc -> size_ok (lenZ vs) cmn cmx) /\
  (forall vs p, In vs mc -> In p vs -> drawable_point xs ys p) /\ ForallOrdPairs parted mc.
Proof.
  intros Hc H. unfold to_multicontour_strategy in H. apply gen_pfilter in H. destruct H as (H & Hv).
  apply multicontour_sizes_valid in Hv. destruct Hv as (V1 & V2). split; [exact V1|]. split; [exact V2|].
  apply gen_bind in H. destruct H as (points & Hp & H). apply gen_bind in H. destruct H as (size & _ & H).
  apply gen_bind in H. destruct H as (sizes & Hs & H). apply gen_bind in H. destruct H as (choices & _ & H).
  apply gen_lift in H. apply to_multicontour_spec in H.
  - destruct H as (H1 & H2). split; [|exact H2]. intros vs p Hin Hpi. destruct (H1 vs Hin) as (Hi & _).
    apply Hi in Hpi. apply grid_sound in Hp. apply Hp, Hpi.
  - intros s Hin. pose proof (to_sizes_ge _ _ _ _ Hs s Hin). lia.
Qed.

(** ** The holes of [to_polygon]. *)
Lemma reverse_in vs p : In p (reverse_vertices vs) <-> In p vs.
Proof. destruct vs as [|v vs]; [reflexivity|]. cbn. rewrite <- in_rev. reflexivity. Qed.
Lemma reverse_length vs : length (reverse_vertices vs) = length vs.
Proof. destruct vs as [|v vs]; [reflexivity|]. cbn. rewrite rev_length. reflexivity. Qed.
Lemma add_point_in p q l : In q (add_point p l) <-> q = p \/ In q l.
Proof.
  unfold add_point. destruct (mem_point p l) eqn:E; cbn.
  - unfold mem_point in E. apply existsb_exists in E. destruct E as (r & Hr & E). apply point_eqb_eq in E. subst r.
    split; [auto|]. intros [-> |H]; assumption.
  - split; [intros [<- |H]|intros [-> |H]]; auto.
Qed.
Lemma add_points_in l : forall acc q, In q (fold_left (fun acc p => add_point p acc) l acc) <-> In q l \/ In q acc.
Proof.
  induction l as [|p l IH]; intros acc q; cbn [fold_left]; [cbn; tauto|]. rewrite IH, add_point_in. cbn. intuition congruence.
Qed.
Lemma points_set_in l p : In p (points_set l) <-> In p l.
Proof. induction l as [|q l IH]; [reflexivity|]. cbn [points_set]. rewrite add_point_in, IH. cbn. intuition congruence. Qed.
Lemma points_set_nodup l : NoDup (points_set l).
Proof.
  induction l as [|q l IH]; [constructor|]. cbn [points_set]. unfold add_point. destruct (mem_point q (points_set l)) eqn:E; [exact IH|].
  constructor; [|exact IH]. intros H. assert (mem_point q (points_set l) = true); [|congruence].
  apply existsb_exists. exists q. split; [exact H|]. apply point_eqb_eq. reflexivity.
Qed.
Lemma mem_point_in p l : mem_point p l = true <-> In p l.
Proof.
  unfold mem_point. rewrite existsb_exists. split.
  - intros (q & Hq & E). apply point_eqb_eq in E. subst q. exact Hq.
  - intros H. exists p. split; [exact H|]. apply point_eqb_eq. reflexivity.
Qed.
Lemma hole_loop_spec ctx sizes : forall choices prior inner hs bp hs' bp',
  (forall s, In s sizes -> (1 <= s)%Z) -> (forall k, prior = Some k -> StronglySorted (kle k) inner) ->
  hole_loop ctx sizes choices prior inner hs bp = Ok (hs', bp') ->
  exists new, hs' = hs ++ new /\ (forall vs, In vs new -> incl vs inner /\ 3 <= length vs) /\ ForallOrdPairs parted new
    /\ (forall vs p, In vs new -> In p vs -> In p bp') /\ incl bp bp' /\ (forall p, In p bp' -> In p bp \/ In p inner).
Proof.
  induction sizes as [|size sizes IH]; intros choices prior inner hs bp hs' bp' Hs Hp H.
  { cbn in H. injection H as <- <-. exists []. rewrite app_nil_r. split; [reflexivity|]. split; [intros vs []|].
    split; [constructor|]. split; [intros vs p []|]. split; [apply incl_refl|auto]. }
  destruct choices as [|k choices]; cbn [hole_loop] in H.
  { injection H as <- <-. exists []. rewrite app_nil_r. split; [reflexivity|]. split; [intros vs []|].
    split; [constructor|]. split; [intros vs p []|]. split; [apply incl_refl|auto]. }
  destruct (resorted prior k inner Hp) as (S1 & I1 & _).
  set (inner' := if (_ : bool) then inner else sort_points k inner) in *. clearbody inner'.
  apply rbind_ok in H. destruct H as (vs & Hv & H).
  destruct (MIN_CONTOUR_SIZE <=? lenZ vs)%Z eqn:E.
  - apply rbind_ok in H. destruct H as (u & _ & H). apply rbind_ok in H. destruct H as (touch & _ & H).
    apply IH in H; [|intros s Hin; apply Hs; right; exact Hin|].
    + destruct H as (new & -> & Hn & Hf & Hb & Hb1 & Hb2). exists (reverse_vertices vs :: new). rewrite <- app_assoc. split; [reflexivity|].
      assert (Hvs : incl (reverse_vertices vs) (py_take inner' size)).
      { intros p Hin. apply (proj1 (reverse_in _ _)) in Hin. eapply to_vertex_sequence_in; eassumption. }
      assert (H1 : (1 <= size)%Z) by (apply Hs; left; reflexivity).
      assert (L3 : 3 <= length vs).
      { apply Z.leb_le in E. change MIN_CONTOUR_SIZE with 3%Z in E. unfold lenZ in E. lia. }
      split; [|split; [|split; [|split]]].
      * intros ws [<- |Hw].
        -- split; [intros p Hin; apply I1; eapply py_take_in, Hvs, Hin|]. rewrite reverse_length. exact L3.
        -- destruct (Hn ws Hw) as (Hi & Hl). split; [|exact Hl]. intros p Hin. apply I1. eapply py_drop_in, Hi, Hin.
      * constructor; [|exact Hf]. apply Forall_forall. intros ws Hw.
        set (hp := py_take inner' size) in *.
        assert (Eh : hp = py_take inner' (lenZ hp)).
        { unfold hp. rewrite py_take_length by lia. destruct (Z_le_gt_dec size (lenZ inner')).
          - rewrite Z.min_l by lia. reflexivity.
          - rewrite Z.min_r by lia. rewrite !py_take_all by lia. reflexivity. }
        assert (Hne : (1 <= lenZ hp)%Z).
        { destruct vs as [|v vs]; [cbn in L3; lia|]. assert (Hin : In v hp) by (apply Hvs; left; reflexivity).
          destruct hp; [destruct Hin|]. unfold lenZ. cbn. lia. }
        eapply parted_incl; [apply (cut_parted k inner' (lenZ hp) (b2z touch) S1 Hne (b2z_range _))| |apply Hn, Hw].
        rewrite <- Eh. exact Hvs.
      * intros ws p [<- |Hw] Hin; [|eapply Hb; eassumption]. apply Hb1. apply add_points_in. left. apply Hvs, Hin.
      * intros p Hin. apply Hb1. apply add_points_in. right. exact Hin.
      * intros p Hin. apply Hb2 in Hin. destruct Hin as [Hin|Hin].
        -- apply (proj1 (add_points_in _ _ _)) in Hin. destruct Hin as [Hin|Hin]; [right; apply I1; eapply py_take_in, Hin|left; exact Hin].
        -- right. apply I1. eapply py_drop_in, Hin.
    + intros k' Ek. injection Ek as <-. unfold py_drop. apply skipn_sorted, S1.
  - apply IH in H; [|intros s Hin; apply Hs; right; exact Hin|].
    + destruct H as (new & -> & Hn & Hf & Hb & Hb1 & Hb2). exists new. split; [reflexivity|]. split; [|split; [exact Hf|split; [exact Hb|split; [exact Hb1|]]]].
      * intros ws Hw. destruct (Hn ws Hw) as (Hi & Hl). split; [|exact Hl]. intros p Hin. apply I1, Hi, Hin.
      * intros p Hin. apply Hb2 in Hin. rewrite I1 in Hin. exact Hin.
    + intros k' Ek. injection Ek as <-. exact S1.
Qed.

(** ** [to_polygon] *)
Lemma to_polygon_spec ctx points size sizes choices p : (forall s, In s sizes -> (1 <= s)%Z) ->
  to_polygon ctx points size sizes choices = Ok p ->
  incl (border p) points /\ 3 <= length (border p) /\
  (forall vs, In vs (holes p) -> incl vs points /\ 3 <= length vs) /\ ForallOrdPairs parted (holes p).
Proof.
  intros Hs H. unfold to_polygon in H. apply rbind_ok in H. destruct H as ((t & h) & H1 & H).
  apply rbind_ok in H. destruct H as (es & H2 & H). apply rbind_ok in H. destruct H as ((hs & bp) & H3 & H).
  apply rbind_ok in H. destruct H as (cands & H4 & H). apply rbind_ok in H. destruct H as (st & H5 & H).
  apply rbind_ok in H. destruct H as (bv & H6 & H). apply rbind_ok in H. destruct H as (u & H7 & H). injection H as <-.
  apply hole_loop_spec in H3; [|exact Hs|discriminate]. destruct H3 as (new & -> & Hn & Hf & _). cbn [app border holes].
  destruct (delaunay_winv ctx points t h (fun p => In p points) (fun _ H => H) H1) as (W & L).
  pose proof (boundary_live _ _ _ _ _ _ W L H2) as Le.
  apply (while_ok (pinv (fun p => In p points) (h_count h)) (pinv (fun p => In p points) (h_count h))) in H5.
  - split; [|split; [|split; [|exact Hf]]].
    + intros q Hq. eapply (border_vertices_P (fun p => In p points)); [apply H5|apply H5|exact H6|exact Hq].
    + unfold assert_ in H7. change MIN_CONTOUR_SIZE with 3%Z in H7. destruct (Z.leb_spec 3 (lenZ bv)); [|discriminate]. unfold lenZ in *. lia.
    + intros vs Hv. destruct (Hn vs Hv) as (Hi & Hl). split; [|exact Hl]. intros q Hq. apply Hi in Hq. apply filter_In in Hq.
      apply (points_set_in points q), Hq.
  - intros s Hi. pose proof (border_step_inv _ _ (ctx_fuel ctx) ctx (flat_map contour_segments (@nil contour ++ new)) size s Hi) as K.
    destruct (border_step _ _ _ _ s) as [[?|?]|?]; auto.
  - split; cbn [p_heap p_tri p_cands p_neighbours]; [exact W|exact L| |].
    + eapply kset_of_list_live; [|constructor|exact H4]. apply Forall_filter, Le.
    + apply Forall_forall. intros kv Hk. apply in_map_iff in Hk. destruct Hk as (e & <- & He). cbn [snd].
      eapply neighbours_live; [exact W|]. unfold edges_live in Le. rewrite Forall_forall in Le. apply Le, He.
Qed.
Lemma polygon_strategy_spec ctx xs ys mn mx hmn hmx smn smx p : (1 <= smn)%Z ->
  generates (to_polygon_strategy ctx xs ys mn mx hmn hmx smn smx) p ->
  size_ok (lenZ (border p)) mn mx /\ size_ok (lenZ (holes p)) hmn hmx /\
  (forall vs : contour, In vs (holes p) -> size_ok (lenZ vs) smn smx) /\
  (forall q, In q (border p) -> drawable_point xs ys q) /\
  (forall vs q, In vs (holes p) -> In q vs -> drawable_point xs ys q) /\
  ForallOrdPairs parted (holes p).
Proof.
  intros Hc H. unfold to_polygon_strategy in H. apply gen_pfilter in H. destruct H as (H & Hv).
  unfold polygon_has_valid_sizes in Hv. apply andb_true_iff in Hv. destruct Hv as (V0 & Hv). apply size_valid in V0.
  apply multicontour_sizes_valid in Hv. destruct Hv as (V1 & V2). split; [exact V0|]. split; [exact V1|]. split; [exact V2|].
  apply gen_bind in H. destruct H as (points & Hp & H). apply gen_pfilter in Hp. destruct Hp as (Hp & _). apply grid_sound in Hp.
  apply gen_bind in H. destruct H as (size & _ & H).
  apply gen_bind in H. destruct H as (sizes & Hs & H). apply gen_bind in H. destruct H as (choices & _ & H).
  apply gen_lift in H. apply to_polygon_spec in H.
  - destruct H as (H1 & _ & H2 & H3). split; [intros q Hq; apply Hp, H1, Hq|]. split; [|exact H3].
    intros vs q Hin Hq. apply Hp. apply (H2 vs Hin), Hq.
  - intros s Hin. pose proof (to_hole_sizes_ge _ _ _ _ _ Hs s Hin). lia.
Qed.

(** ** The assertion on the holes. *)
Lemma some_cross_app l m : some_segments_cross_or_overlap (l ++ m) = true ->
  some_segments_cross_or_overlap l = true \/ some_segments_cross_or_overlap m = true
  \/ exists s t, In s l /\ In t m /\ segments_cross_or_overlap s t = true.
Proof.
  induction l as [|s l IH]; intros H; [auto|]. cbn in H. apply orb_true_iff in H. destruct H as [H|H].
  - apply existsb_exists in H. destruct H as (t & Ht & E). apply in_app_or in Ht. destruct Ht as [Ht|Ht].
    + left. cbn. apply orb_true_iff. left. apply existsb_exists. exists t. auto.
    + right. right. exists s, t. split; [left; reflexivity|auto].
  - destruct (IH H) as [K|[K|(a & b & Ha & Hb & E)]].
    + left. cbn. rewrite K. apply orb_true_r.
    + auto.
    + right. right. exists a, b. split; [right; exact Ha|auto].
Qed.
Lemma some_cross_pair l : some_segments_cross_or_overlap l = true ->
  exists i j s t, i < j /\ nth_error l i = Some s /\ nth_error l j = Some t /\ interiors_meet s t.
Proof.
  induction l as [|s l IH]; intros H; [discriminate|]. cbn in H. apply orb_true_iff in H. destruct H as [H|H].
  - apply existsb_exists in H. destruct H as (t & Ht & E). apply cross_or_overlap_spec in E.
    apply In_nth_error in Ht. destruct Ht as (j & Hj). exists 0, (S j), s, t. split; [lia|]. auto.
  - destruct (IH H) as (i & j & a & b & L & Hi & Hj & E). exists (S i), (S j), a, b. split; [lia|]. auto.
Qed.
(** The check fails for holes that are pairwise apart only if two edges of one hole cross. *)
Lemma holes_check_fails (hs : list contour) : ForallOrdPairs edges_apart hs -> contours_do_not_cross_or_overlap hs = false ->
  exists c i j s t, In c hs /\ i < j /\ nth_error (contour_segments c) i = Some s /\ nth_error (contour_segments c) j = Some t
    /\ interiors_meet s t.
Proof.
  unfold contours_do_not_cross_or_overlap, are_segments_non_crossing_non_overlapping. rewrite negb_false_iff.
  intros F. induction F as [|c hs Hc F IH]; intros H; [discriminate|]. cbn [flat_map] in H.
  destruct (some_cross_app _ _ H) as [K|[K|(s & t & Hs & Ht & E)]].
  - destruct (some_cross_pair _ K) as (i & j & s & t & L & Hi & Hj & E). exists c, i, j, s, t. split; [left; reflexivity|auto].
  - destruct (IH K) as (c' & i & j & s & t & Hin & R). exists c', i, j, s, t. split; [right; exact Hin|exact R].
  - exfalso. apply in_flat_map in Ht. destruct Ht as (c' & Hc' & Ht). rewrite Forall_forall in Hc.
    apply cross_or_overlap_spec in E. destruct s as [a b], t as [a' b']. apply segments_edge in Hs, Ht.
    eapply (Hc c' Hc'); eassumption.
Qed.
