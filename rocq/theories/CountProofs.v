(** Which numbers of contours and of holes can be reached. *)
From Coq Require Import List Lia Znumtheory Permutation Sorted.
From Verif Require Import Base Prog Geometry Ctx Utils Contracts Spec RangeSpec WindSpec GeneralSpec HullSpec RelaxSpec SizeSpec CountSpec Factories Triangulation Strategies Planar
  ProgProofs LoopProofs ListProofs PrimeProofs GridProofs PlanarProofs QcTac QcFast GeomProofs HullProofs RangeProofs RangeApiProofs ContourProofs FaultProofs FuelProofs
  SegmentProofs EdgeProofs SeparationProofs HelperProofs CarveProofs MultiProofs MemberProofs SequenceProofs CompressProofs CyclicProofs BorderProofs CycEdge
  DelTotal DelCyc DelHeap DelHull DelWind DelCarve DelBorder DelRim DelGreen Jordan DelPoly DelPolyTotal DelContour PolyFaultProofs GeneralProofs GeneralPolyProofs
  CapProofs TriProofs ConvexProofs CountGrid.
Import List ListNotations.
Open Scope Z_scope.

(** ** Three points on the hull. *)
Lemma sorted_nodup (R : point -> point -> Prop) (Ri : forall p, ~ R p p) st : StronglySorted R st -> NoDup st.
Proof.
  induction 1 as [|x l S IH F]; constructor; [|exact IH]. intros I. rewrite Forall_forall in F. apply (Ri x), F, I.
Qed.
Lemma removelast_length {A} (l : list A) : (length (removelast l) <= length l - 1)%nat.
Proof. destruct l as [|x l]; [cbn; lia|]. pose proof (f_equal (@length A) (@app_removelast_last A (x :: l) x ltac:(discriminate))) as E. rewrite app_length in E. cbn [length] in *. lia. Qed.
Lemma small_hull l a b c : NoDup l -> (2 <= length l)%nat -> plt a c -> plt c b -> (0 < cross a b c)%Qc -> In a l -> In b l -> In c l ->
  (forall v, on_hull_boundary l v -> In v [a; b; c]) -> (length (to_max_convex_hull l) <= 3)%nat.
Proof.
  intros N L2 Lac Lcb Lt Ia Ib Ic H. assert (M : forall v, In v (to_max_convex_hull l) -> In v [a; b; c]) by (intros v Hv; apply H; apply max_hull_boundary; assumption).
  assert (M1 : forall v, In v (to_sub_hull (isort point_leb l)) -> In v [a; b; c]) by (intros v Hv; apply M, max_hull_in; auto).
  assert (M2 : forall v, In v (to_sub_hull (rev (isort point_leb l))) -> In v [a; b; c]) by (intros v Hv; apply M, max_hull_in; auto).
  unfold to_max_convex_hull. pose proof (isort_points_strict l N) as Hs.
  pose proof (lower_inv _ Hs) as I1. pose proof (upper_inv _ (sorted_rev _ _ Hs)) as I2. set (m := isort point_leb l) in *.
  assert (Lu : (length (to_sub_hull (rev m)) <= 3)%nat).
  { change 3%nat with (length [a; b; c]). apply NoDup_incl_length; [|exact M2]. rewrite <- (rev_involutive (to_sub_hull (rev m))). apply NoDup_rev.
    apply (sorted_nodup _ (fun p => plt_irrefl p)), (inv_sorted _ _ _ I2). }
  assert (Ll : (length (to_sub_hull m) <= 2)%nat).
  { assert (Ns : NoDup (rev (to_sub_hull m))) by (apply (sorted_nodup (fun a b => plt b a) (fun p => plt_irrefl p)), (inv_sorted _ _ _ I1)).
    assert (M3 : forall v, In v (rev (to_sub_hull m)) -> In v [a; b; c]) by (intros v Hv; apply M1; apply in_rev; exact Hv).
    assert (Nc : ~ In c (rev (to_sub_hull m))).
    { intros Hc. pose proof (inv_sorted _ _ _ I1) as S. pose proof (inv_left _ _ _ I1) as Lf.
      destruct (inv_bottom _ _ _ I1) as (bt & _ & Hb & Bt); [intros E; apply (in_nil (a := a)); rewrite <- E; apply isort_in, Ia|].
      assert (Ha : In a (rev (to_sub_hull m))).
      { destruct (Bt a) as [->|K]; [apply isort_in, Ia|exact Hb|]. exfalso. destruct (M3 bt Hb) as [<-|[<-|[<-|[]]]];
          [exact (plt_irrefl _ K)|exact (plt_irrefl _ (plt_trans _ _ _ K (plt_trans _ _ _ Lac Lcb)))|exact (plt_irrefl _ (plt_trans _ _ _ K Lac))]. }
      assert (K : forall x y q, edge_of (rev (to_sub_hull m)) x y -> In q l -> (0 <= cross x y q)%Qc) by (intros x y q E Iq; apply Lf; [exact E|apply isort_in, Iq]).
      clear - K S Hc Ha M3 Lac Lcb Lt Ib. set (st := rev (to_sub_hull m)) in *. clearbody st.
      assert (X : edge_of st a c).
      { induction S as [|x st S IH F]; [destruct Hc|]. rewrite Forall_forall in F.
        assert (Hx : x <> a) by (intros ->; destruct Hc as [->|Hc]; [exact (plt_irrefl _ Lac)|apply (plt_irrefl a); exact (plt_trans _ _ _ Lac (F c Hc))]).
        destruct Ha as [E|Ha]; [contradiction|]. destruct Hc as [->|Hc].
        - destruct st as [|y st]; [destruct Ha|]. destruct (M3 y) as [<-|[<-|[<-|[]]]]; [right; left; reflexivity|exists [], st; reflexivity| |].
          + exfalso. exact (plt_irrefl _ (plt_trans _ _ _ Lcb (F b (or_introl eq_refl)))).
          + exfalso. exact (plt_irrefl _ (F c (or_introl eq_refl))).
        - apply edge_of_tl, IH; auto. intros v Hv. apply M3. right. exact Hv. intros u w q E. apply K, edge_of_tl, E. }
      pose proof (K a c b X Ib) as Q. assert (E : cross a c b = (- cross a b c)%Qc) by (unfold cross; ring). rewrite E in Q. generalize dependent (cross a b c). intros; ql. }
    rewrite <- (rev_length (to_sub_hull m)). change 2%nat with (length [a; b]). apply NoDup_incl_length; [exact Ns|]. intros v Hv.
    destruct (M3 v Hv) as [<-|[<-|[<-|[]]]]; [left; reflexivity|right; left; reflexivity|contradiction]. }
  rewrite app_length. pose proof (removelast_length (to_sub_hull m)). pose proof (removelast_length (to_sub_hull (rev m))). lia.
Qed.
Lemma flat_max_hull p o : prime p -> 5 <= p -> (length (to_max_convex_hull (flat_points p o)) <= 3)%nat.
Proof.
  intros Hp H5. destruct (flat_three p o Hp H5) as (N & _). destruct (corners_in p o H5) as (Ia & Ib & Ic).
  pose proof (flat_length p o) as L. unfold lenZ in L.
  apply (small_hull _ (corner_a p o) (corner_b p o) (corner_c p o)); auto; [lia| | | |apply flat_hull; assumption].
  - left. unfold corner_a, corner_c. cbn [px]. apply SizeGrid.Qc_of_Z_lt. lia.
  - left. unfold corner_b, corner_c. cbn [px]. apply SizeGrid.Qc_of_Z_lt. lia.
  - unfold corner_a, corner_b, corner_c. rewrite cross_int, height_0. change (Q2Qc 0) with (Qc_of_Z 0). apply SizeGrid.Qc_of_Z_lt.
    assert (0 < height p (p - 1)) by (rewrite <- (height_0 p); apply height_lt; lia). nia.
Qed.

(** ** The sizes of the pieces. *)
Lemma small_take (l : list point) s : 0 <= s -> (length (py_take l s) <= Z.to_nat s)%nat.
Proof. intros H. rewrite take_pos by lia. apply firstn_le_length. Qed.
Section Pieces.
Context (ctx : context) (k : nat).
Lemma multicontour_small sizes : forall choices prior points result r, 
  multicontour_loop ctx sizes choices prior points result = Ok r ->
  (length r <= length result + length sizes)%nat /\ ((forall s, In s sizes -> 0 <= s <= Z.of_nat k) -> forall vs, In vs r -> In vs result \/ exists pts, incl vs pts /\ (length pts <= k)%nat).
Proof.
  induction sizes as [|size sizes IH]; intros choices prior points result r H; [cbn in H; injection H as <-; cbn; split; [lia|auto]|].
  destruct choices as [|c choices]; cbn [multicontour_loop] in H; [injection H as <-; cbn; split; [lia|auto]|].
  set (points' := if (_ : bool) then points else sort_points c points) in *. clearbody points'.
  apply rbind_ok in H. destruct H as (ws & Hw & H). destruct (_ <=? _).
  - apply rbind_ok in H. destruct H as (touch & _ & H). apply IH in H. destruct H as (L & H).
    rewrite app_length in L. cbn [length] in *. split; [lia|]. intros Hs vs Hv. destruct (H (fun s Is => Hs s (or_intror Is)) vs Hv) as [K|K]; [|auto]. apply in_app_or in K. destruct K as [K|[<-|[]]]; [auto|].
    right. exists (py_take points' size). split; [intros p Hp; eapply to_vertex_sequence_in; eassumption|].
    pose proof (Hs size (or_introl eq_refl)) as Hk. pose proof (small_take points' size ltac:(lia)). lia.
  - apply IH in H. cbn [length]. split; [lia|]. intros Hs. apply H. intros s Is. apply Hs. right. exact Is.
Qed.
Lemma holes_small sizes : forall choices prior inner hs bp hs' bp', 
  hole_loop ctx sizes choices prior inner hs bp = Ok (hs', bp') ->
  (length hs' <= length hs + length sizes)%nat /\ ((forall s, In s sizes -> 0 <= s <= Z.of_nat k) -> forall vs, In vs hs' -> In vs hs \/ exists pts, incl vs pts /\ (length pts <= k)%nat).
Proof.
  induction sizes as [|size sizes IH]; intros choices prior inner hs bp hs' bp' H; [cbn in H; injection H as <- _; cbn; split; [lia|auto]|].
  destruct choices as [|c choices]; cbn [hole_loop] in H; [injection H as <- _; cbn; split; [lia|auto]|].
  set (inner' := if (_ : bool) then inner else sort_points c inner) in *. clearbody inner'.
  apply rbind_ok in H. destruct H as (ws & Hw & H). destruct (_ <=? _).
  - apply rbind_ok in H. destruct H as (u & _ & H). apply rbind_ok in H. destruct H as (touch & _ & H). apply IH in H.
    destruct H as (L & H). rewrite app_length in L. cbn [length] in *. split; [lia|]. intros Hs vs Hv. destruct (H (fun s Is => Hs s (or_intror Is)) vs Hv) as [K|K]; [|auto]. apply in_app_or in K.
    destruct K as [K|[<-|[]]]; [auto|]. right. exists (py_take inner' size).
    split; [intros p Hp; apply (proj1 (reverse_in _ _)) in Hp; eapply to_vertex_sequence_in; eassumption|].
    pose proof (Hs size (or_introl eq_refl)) as Hk. pose proof (small_take inner' size ltac:(lia)). lia.
  - apply IH in H. cbn [length]. split; [lia|]. intros Hs. apply H. intros s Is. apply Hs. right. exact Is.
Qed.
End Pieces.
Lemma Forall2_length {A B} (R : A -> B -> Prop) l r : Forall2 R l r -> length l = length r.
Proof. induction 1; cbn [length]; congruence. Qed.
Lemma sizes_length size m limit r : generates (to_sizes_ size m limit) r -> lenZ r = Z.max size 0.
Proof.
  intros H. unfold to_sizes_ in H. apply gen_bind in H. destruct H as (mx & Hm & H). apply gen_lift, spread_sizes_spec in Hm.
  apply gen_bind in H. destruct H as (l & Hl & H). apply gen_permutations, Permutation_length in H. apply gen_sequence, Forall2_length in Hl.
  rewrite map_length in Hl. unfold lenZ in *. lia.
Qed.
Lemma hole_sizes_length points hmn hmx smn r : 0 <= hmn -> 1 <= smn -> generates (to_hole_sizes points hmn hmx smn) r ->
  r = [] \/ smn * lenZ r <= lenZ points - lenZ (to_max_convex_hull points).
Proof.
  intros H0 Hs H. unfold to_hole_sizes in H. cbv zeta in H. set (inner := lenZ points - lenZ (to_max_convex_hull points)) in *.
  destruct (Z.leb_spec smn inner); [|apply gen_ret in H; auto]. right. apply gen_bind in H. destruct H as (n & Hn & H).
  apply gen_integers in Hn. destruct Hn as (Hn1 & Hn2).
  assert (L : lenZ r = n).
  { unfold to_hole_sizes_ in H. destruct (Z.eqb_spec n 0); [apply gen_ret in H; subst; reflexivity|].
    apply gen_bind in H. destruct H as (mx & Hm & H). apply gen_lift, spread_sizes_spec in Hm.
    apply gen_bind in H. destruct H as (l & Hl & H). apply gen_permutations, Permutation_length in Hl. apply gen_sequence, Forall2_length in H.
    rewrite map_length in H. unfold lenZ in *. lia. }
  assert (n <= inner / smn) by (unfold min_opt in Hn2; destruct hmx; lia). pose proof (Z.mul_div_le inner smn ltac:(lia)). nia.
Qed.
Lemma repeat_drawn m n limit l : spread_sizes n m limit = Ok l -> 0 <= n -> generates (sequence (map (fun x => integers m (Some x)) l)) (repeat m (Z.to_nat n)).
Proof.
  intros H Hn. apply spread_sizes_spec in H. destruct H as (L & H). apply gen_sequence. assert (E : Z.to_nat n = length l) by (unfold lenZ in L; lia). rewrite E. clear L E.
  induction l as [|x l IH]; cbn [map length repeat]; constructor; [|apply IH; intros y Hy; apply H; right; exact Hy].
  apply gen_integers. split; [lia|]. apply H. left. reflexivity.
Qed.
Lemma spread_some n m limit : 1 <= n -> exists l, spread_sizes n m limit = Ok l.
Proof. intros H. unfold spread_sizes. replace (n <=? 0) with false by (symmetry; apply Z.leb_gt; lia). eexists. reflexivity. Qed.

(** ** The number of points. *)
Lemma grid_points_number xs ys mn mx l n : generates (to_point_sequence_in_general_position_strategy xs ys mn mx) l -> n <= lenZ l -> enough_points mn mx n.
Proof.
  intros H Hn. apply grid_sound in H. destruct H as [H3 (lower & E & Hl) Hu (n' & xl & yl & _ & _ & _ & _ & _ & (Hp & _) & _) _ _ _ _].
  exists (lenZ l). pose proof (to_next_prime_ge _ _ E) as (_ & Pl & L5 & Lm & Min). split; [exact Hp|]. split; [lia|]. split; [exact Hn|]. intros m Em.
  specialize (Hu m lower Em E). destruct (Z_le_gt_dec (lenZ l) m) as [K|K]; [left; exact K|right].
  assert (Eq : lenZ l = lower) by lia. rewrite Eq. split; [exact Pl|]. split; [lia|]. split; [exact Lm|exact Min].
Qed.
Lemma least_enough mn mx n : 3 <= mn -> mn <= n -> enough_points mn mx n ->
  exists r, prime r /\ 5 <= r /\ n <= r <= 2 * n /\ forall m, mx = Some m -> r <= m \/ smallest_prime_above mn r.
Proof.
  intros H3 Hn (q & Pq & Q3 & Qn & Q). destruct (next_prime_spec n ltac:(lia)) as (r & E & Pr & R3 & Rn & Min). exists r.
  assert (R5 : 5 <= r) by apply (to_next_prime_ge _ _ E).
  split; [exact Pr|]. split; [exact R5|]. split.
  - split; [exact Rn|]. destruct (Bertrand.bertrand_Z n ltac:(lia)) as (p & Pp & P1 & P2). specialize (Min p Pp ltac:(lia) ltac:(lia)). lia.
  - intros m Em. pose proof (Min q Pq Q3 Qn) as Rq. destruct (Q m Em) as [K|K]; [left; lia|]. right.
    assert (q <= r) by (apply K; [exact Pr|lia|lia]). replace r with q by lia. exact K.
Qed.

(** ** Multicontours. *)
Lemma three_long (vs pts : list point) : NoDup vs -> incl vs pts -> (length pts <= 3)%nat -> (length vs <= 3)%nat.
Proof. intros N I L. pose proof (NoDup_incl_length N I). lia. Qed.
Lemma valid_sizes mc mn mx cmn cmx : size_ok (lenZ mc) mn mx -> (forall vs : contour, In vs mc -> size_ok (lenZ vs) cmn cmx) ->
  multicontour_has_valid_sizes mc mn mx cmn cmx = true.
Proof.
  intros H1 H2. unfold multicontour_has_valid_sizes. rewrite andb_true_iff, size_valid, forallb_forall. split; [exact H1|]. intros vs Hv. apply size_valid, H2, Hv.
Qed.
Lemma multicontour_number ctx xs ys mn mx cmn cmx mc : 0 <= mn -> 3 <= cmn -> generates (to_multicontour_strategy ctx xs ys mn mx cmn cmx) mc ->
  enough_points (mn * cmn) (max_product mx cmx) (lenZ mc * cmn).
Proof.
  intros Hm Hc H. unfold to_multicontour_strategy in H. cbv zeta in H. apply gen_pfilter in H. destruct H as (H & _).
  apply gen_bind in H. destruct H as (pts & Hp & H). apply gen_bind in H. destruct H as (size & Hz & H).
  apply gen_bind in H. destruct H as (sizes & Hs & H). apply gen_bind in H. destruct H as (choices & _ & H). apply gen_lift in H.
  apply (multicontour_small ctx 0) in H. destruct H as (L & _). apply sizes_length in Hs. apply gen_integers in Hz. destruct Hz as (Z1 & Z2).
  eapply grid_points_number; [exact Hp|]. assert (size <= lenZ pts / cmn) by (unfold min_opt in Z2; destruct mx; lia). pose proof (Z.mul_div_le (lenZ pts) cmn ltac:(lia)).
  cbn [length] in L. unfold lenZ in *. nia.
Qed.
Lemma flat_drawn p n xs ys : 5 <= p -> p <= n -> draws_upto xs ys ((n + 1) ^ n) ->
  (forall x, In x (abscissas p 0) -> drawable xs x) /\ (forall y, In y (heights p) -> drawable (ordinates xs ys) y).
Proof.
  intros H5 Hn D. assert (P : (p + 1) ^ p <= (n + 1) ^ n).
  { transitivity ((n + 1) ^ p); [apply Z.pow_le_mono_l; lia|apply Z.pow_le_mono_r; lia]. }
  assert (Q : p + 1 <= (p + 1) ^ p) by (rewrite <- (Z.pow_1_r (p + 1)) at 1; apply Z.pow_le_mono_r; lia).
  split; intros x Hx; apply in_map_iff in Hx; destruct Hx as (i & <- & Hi); apply in_zrange in Hi.
  - apply D. lia.
  - apply D. split; [apply height_nonneg; lia|]. unfold height. assert (0 < (p + 1) ^ (p - i)) by (apply Z.pow_pos_nonneg; lia). lia.
Qed.
Lemma multicontour_reached ctx xs ys mn mx cmx k : (forall n, (2 <= n)%nat -> is_change n (ctx_coins ctx n)) -> draws_upto xs ys ((6 * k + 1) ^ (6 * k)) ->
  2 <= mn -> mn <= k -> (forall m, mx = Some m -> k <= m) -> (forall c, cmx = Some c -> 3 <= c) -> enough_points (mn * 3) (max_product mx cmx) (k * 3) ->
  enough_fuel ctx (Z.to_nat (6 * k)) -> exists mc, generates (to_multicontour_strategy ctx xs ys mn mx 3 cmx) mc /\ lenZ mc = k /\ (forall vs, In vs mc -> lenZ vs = 3).
Proof.
  intros Coins D H2 Hk Hx Hc He Fu. destruct (least_enough (mn * 3) (max_product mx cmx) (k * 3) ltac:(lia) ltac:(lia) He) as (r & Pr & R5 & Rk & Rm).
  destruct (flat_drawn r (6 * k) xs ys R5 ltac:(lia) D) as (Dx & Dy). destruct (flat_three r 0 Pr R5) as (N & G). pose proof (flat_length r 0) as L. specialize (L R5).
  set (sizes := repeat 3 (Z.to_nat k)). assert (Ls : length sizes = Z.to_nat k) by apply repeat_length.
  assert (S3 : forall s, In s sizes -> s = 3) by (intros s Is; apply repeat_spec in Is; exact Is).
  destruct (multicontour_loop_ok ctx Coins sizes (repeat true (length sizes)) None (flat_points r 0) []) as (mc & E & F & Lm).
  - intros s Is. rewrite (S3 s Is). lia.
  - unfold sizes. rewrite total_repeat. lia.
  - exact N.
  - exact G.
  - apply (enough_mono ctx (Z.to_nat (6 * k))); [|exact Fu]. unfold lenZ in L. lia.
  - cbn [app] in E. rewrite repeat_length, Nat.min_id, Ls in Lm. assert (Lk : lenZ mc = k) by (unfold lenZ; lia).
    assert (T : forall vs, In vs mc -> lenZ vs = 3).
    { intros vs Hv. destruct (multicontour_small ctx 3 _ _ _ _ _ _ E) as (_ & Sm). destruct (Sm ltac:(intros s Is; rewrite (S3 s Is); lia) vs Hv) as [[]|(pts & I & Lp)].
      rewrite Forall_forall in F. destruct (F vs Hv) as ((Nv & _) & _). pose proof (three_long vs pts Nv I Lp).
      assert (3 <= length vs)%nat.
      { pose proof E as E'. apply multicontour_loop_spec in E'; [|intros s Is; rewrite (S3 s Is); lia|discriminate]. destruct E' as (new & En & Hn & _). cbn [app] in En. subst new. apply (Hn vs Hv). }
      unfold lenZ. lia. }
    exists mc. split; [|auto]. unfold to_multicontour_strategy. cbv zeta. apply gen_pfilter. split.
    + apply gen_bind. exists (flat_points r 0). split; [apply flat_generated; auto; lia|]. rewrite L. apply gen_bind. exists k. split.
      { apply gen_integers. split; [exact Hk|]. assert (k <= r / 3) by (apply Z.div_le_lower_bound; lia). unfold min_opt. destruct mx as [m|]; [specialize (Hx m eq_refl); lia|assumption]. }
      apply gen_bind. exists sizes. split.
      { unfold to_sizes_. destruct (spread_some k 3 r ltac:(lia)) as (l & El). apply gen_bind. exists l. split; [apply gen_lift; exact El|]. apply gen_bind. exists sizes.
        split; [apply (repeat_drawn 3 k r l El); lia|]. apply gen_permutations. reflexivity. }
      apply gen_bind. exists (repeat true (length sizes)). split; [apply gen_bits, repeat_length|]. apply gen_lift. exact E.
    + apply valid_sizes; [rewrite Lk; split; [exact Hk|exact Hx]|]. intros vs Hv. rewrite (T vs Hv). split; [lia|exact Hc].
Qed.

(** ** Polygons. *)
Lemma while_stops {S R} (body : S -> res (S + R)) n s r : body s = Ok (inr r) -> while_ n body s = Ok r.
Proof. intros H. unfold while_. rewrite loop_nloop. destruct (Pos2Nat.is_succ n) as (m & ->). cbn [nloop]. rewrite H. reflexivity. Qed.
Section P.
Context (ctx : context) (C : contracts ctx) (points : list point) (N : NoDup points) (Sp : DelPoly.spread points).
Lemma hull_cycle t h es : (2 <= length points)%nat -> delaunay ctx points = Ok (t, h) -> to_boundary_edges (ctx_fuel ctx) h t = Ok es ->
  let L := map (QuadEdge.start h) es in NoDup L /\ forall v, In v L -> on_hull_boundary points v.
Proof.
  intros L2 H1 H2 L. destruct (hull_state ctx points N (proj1 C _) t h Sp H1) as (ep & P & m & _ & _ & R & _ & K & Rl & _).
  destruct (boundary_bd h P _ m _ t _ es R K Rl H2) as (_ & All & NL & _). split; [exact NL|]. intros v Hv. unfold L in Hv. apply in_map_iff in Hv. destruct Hv as (e & <- & He).
  destruct (All e He) as (Pe & (Me & Side)).
  assert (Iq : In (QuadEdge.start h e) points) by (apply (isort_in point_leb); apply (DelMap.l_in _ _ (rp_laws _ _ _ _ R) _ _ Me)).
  apply (edge_supports points (QuadEdge.start h e) (QuadEdge.end_ h e)); [exact Iq|left; reflexivity| |].
  - intros Eq. apply (DelMap.l_ne _ _ (rp_laws _ _ _ _ R) _ _ Me). symmetry. exact Eq.
  - intros q Iq'. apply Side. apply isort_in. exact Iq'.
Qed.
Lemma first_border sizes choices p : (2 <= length points)%nat -> (forall s, In s sizes -> 1 <= s) -> to_polygon ctx points 3 sizes choices = Ok p ->
  forall v, In v (border p) -> on_hull_boundary points v.
Proof.
  intros L2 Hs H. unfold to_polygon in H. apply rbind_ok in H. destruct H as ((t & h) & H1 & H).
  apply rbind_ok in H. destruct H as (es & H2 & H). apply rbind_ok in H. destruct H as ((hs & bp) & H3 & H).
  apply rbind_ok in H. destruct H as (cands & H4 & H). apply rbind_ok in H. destruct H as (st & H5 & H).
  apply rbind_ok in H. destruct H as (bv & H6 & H). apply rbind_ok in H. destruct H as (u & _ & H). injection H as <-. cbn [border].
  destruct (border_start ctx points N (proj1 C _) t h es hs bp cands sizes choices Hs Sp H1 H2 H3 H4) as (_ & _ & _ & P & m & bd & [R K Cy _ _ _ _ _ _ _ _ _] & _).
  destruct (hull_cycle t h es L2 H1 H2) as (_ & OnL). set (L := map (QuadEdge.start h) es) in *.
  pose proof (cycle_three _ m bd K L Cy) as L3. pose proof (cycle_jordan _ m bd K L Cy) as J. destruct (compress_jordan L L3 J) as (_ & J2 & _).
  rewrite (while_stops _ _ _ (PState h t bp cands (map (fun e => (e, QuadEdge.to_edge_neighbours h e)) es) (lenZ (compress_contour L)))) in H5.
  2: { unfold border_step. cbn [p_size]. replace (lenZ (compress_contour L) <? 3) with false by (symmetry; apply Z.ltb_ge; unfold lenZ; lia). reflexivity. }
  injection H5 as <-. cbn [p_heap p_tri] in H6. unfold triangulation_to_border_vertices in H6. rewrite H2 in H6. cbn [rbind] in H6. injection H6 as <-.
  intros v Hv. apply OnL. fold L in Hv. apply (compress_incl L). exact Hv.
Qed.
Lemma hull_three size sizes choices p : (2 <= length points)%nat -> (forall s, In s sizes -> 1 <= s) -> to_polygon ctx points size sizes choices = Ok p ->
  (3 <= length (to_max_convex_hull points))%nat.
Proof.
  intros L2 Hs H. unfold to_polygon in H. apply rbind_ok in H. destruct H as ((t & h) & H1 & H).
  apply rbind_ok in H. destruct H as (es & H2 & H). apply rbind_ok in H. destruct H as ((hs & bp) & H3 & H).
  apply rbind_ok in H. destruct H as (cands & H4 & _).
  destruct (border_start ctx points N (proj1 C _) t h es hs bp cands sizes choices Hs Sp H1 H2 H3 H4) as (_ & _ & _ & P & m & bd & [R K Cy _ _ _ _ _ _ _ _ _] & _).
  destruct (hull_cycle t h es L2 H1 H2) as (NL & On). eapply Nat.le_trans; [exact (cycle_three _ m bd K _ Cy)|]. apply NoDup_incl_length; [exact NL|].
  intros v Hv. apply max_hull_boundary; [exact N|exact L2|]. apply On, Hv.
Qed.
End P.
Lemma polygon_spread ctx points size sizes choices p : contracts ctx -> NoDup points -> (forall s, In s sizes -> 1 <= s) ->
  to_polygon ctx points size sizes choices = Ok p -> DelPoly.spread points.
Proof.
  intros C N Hs H. destruct (to_polygon_border ctx points N (proj1 C _) (proj2 C) size sizes choices p Hs H) as (_ & L3 & T & _ & I & _).
  apply not_flat_spread. destruct (border p) as [|a [|b [|c l]]] eqn:E; cbn [length] in L3; try lia. exists a, b, c.
  split; [apply I; left; reflexivity|]. split; [apply I; right; left; reflexivity|]. split; [apply I; right; right; left; reflexivity|].
  apply (T a b c). exists 0%nat. cbn [length]. split; [reflexivity|]. split; (rewrite Nat.mod_small by lia; reflexivity).
Qed.
Lemma polygon_holes ctx points size sizes choices p : to_polygon ctx points size sizes choices = Ok p ->
  (length (holes p) <= length sizes)%nat /\ forall k, (forall s, In s sizes -> 0 <= s <= Z.of_nat k) -> forall vs, In vs (holes p) -> exists pts, incl vs pts /\ (length pts <= k)%nat.
Proof.
  intros H. unfold to_polygon in H. apply rbind_ok in H. destruct H as ((t & h) & H1 & H).
  apply rbind_ok in H. destruct H as (es & H2 & H). apply rbind_ok in H. destruct H as ((hs & bp) & H3 & H).
  apply rbind_ok in H. destruct H as (cands & H4 & H). apply rbind_ok in H. destruct H as (st & H5 & H).
  apply rbind_ok in H. destruct H as (bv & H6 & H). apply rbind_ok in H. destruct H as (u & _ & H). injection H as <-. cbn [holes].
  split; [apply (holes_small ctx 0) in H3; destruct H3 as (L & _); exact L|]. intros k Hk vs Hv. apply (holes_small ctx k) in H3. destruct H3 as (_ & K).
  destruct (K Hk vs Hv) as [[]|X]. exact X.
Qed.
Lemma polygon_number ctx xs ys mn mx hmn hmx smn smx p : contracts ctx -> 3 <= mn -> 0 <= hmn -> 3 <= smn ->
  generates (to_polygon_strategy ctx xs ys mn mx hmn hmx smn smx) p -> enough_points (mn + smn * hmn) (max_vertices mx hmx smx) (3 + smn * lenZ (holes p)).
Proof.
  intros C Hm Hh Hs H. unfold to_polygon_strategy in H. cbv zeta in H. apply gen_pfilter in H. destruct H as (H & _).
  apply gen_bind in H. destruct H as (pts & Hp & H). apply gen_pfilter in Hp. destruct Hp as (Hp & _). apply gen_bind in H. destruct H as (size & _ & H).
  apply gen_bind in H. destruct H as (sizes & Hz & H). apply gen_bind in H. destruct H as (choices & _ & H). apply gen_lift in H.
  pose proof (grid_at_least _ _ _ _ _ Hp) as (_ & H5 & N). pose proof (to_hole_sizes_ge _ _ _ _ _ Hz) as Ge.
  assert (G1 : forall s, In s sizes -> 1 <= s) by (intros s Is; specialize (Ge s Is); lia).
  pose proof (polygon_spread ctx pts size sizes choices p C N G1 H) as Sp.
  pose proof (hull_three ctx C pts N Sp size sizes choices p ltac:(unfold lenZ in H5; lia) G1 H) as H3. destruct (polygon_holes _ _ _ _ _ _ H) as (L & _).
  replace (max_vertices mx hmx smx) with (match mx, hmx, smx with Some m, Some c, Some s => Some (m + s * c) | _, _, _ => None end).
  2: { unfold max_vertices, max_product. destruct mx, hmx, smx; try reflexivity. f_equal. lia. }
  eapply grid_points_number; [exact Hp|]. destruct (hole_sizes_length pts hmn hmx smn sizes Hh ltac:(lia) Hz) as [->|K].
  - cbn [length] in L. unfold lenZ in *. replace (length (holes p)) with 0%nat by lia. lia.
  - unfold lenZ in *. nia.
Qed.
Lemma polygon_flat ctx xs ys mx hmn hmx smx k r o : contracts ctx -> (forall l, is_hull l (ctx_hull ctx l)) ->
  (forall x, In x (abscissas r o) -> drawable xs x) -> (forall y, In y (heights r) -> drawable (ordinates xs ys) y) ->
  0 <= hmn -> hmn <= k -> (forall m, mx = Some m -> 3 <= m) -> (forall m, hmx = Some m -> k <= m) -> (forall c, smx = Some c -> 3 <= c) ->
  prime r -> 5 <= r -> 3 + 3 * k <= r -> (forall m, max_vertices mx hmx smx = Some m -> r <= m \/ smallest_prime_above (3 + 3 * hmn) r) -> enough_fuel ctx (Z.to_nat r) ->
  exists p, generates (to_polygon_strategy ctx xs ys 3 mx hmn hmx 3 smx) p /\ lenZ (border p) = 3 /\ lenZ (holes p) = k /\ (forall vs, In vs (holes p) -> lenZ vs = 3).
Proof.
  intros C Hull Dx Dy H0 Hk Hm Hx Hc Pr R5 Rk Rm Fu. destruct (flat_three r o Pr R5) as (N & G). pose proof (flat_length r o) as L. specialize (L R5).
  pose proof (flat_max_hull r o Pr R5) as Mh. assert (L3 : (3 <= length (flat_points r o))%nat) by (unfold lenZ in L; lia).
  pose proof (hull_at_most_max _ _ N ltac:(lia) (Hull (flat_points r o))) as Hh.
  set (sizes := repeat 3 (Z.to_nat k)). assert (Ls : length sizes = Z.to_nat k) by apply repeat_length.
  assert (S3 : forall s, In s sizes -> s = 3) by (intros s Is; apply repeat_spec in Is; exact Is).
  pose proof (general_spread' _ L3 N G) as Sp.
  destruct (to_polygon_ok ctx C (flat_points r o) 3 sizes (repeat true (length sizes)) N L3 G) as (p & E & F & Lp).
  - apply (enough_mono ctx (Z.to_nat r)); [|exact Fu]. unfold lenZ in L. lia.
  - intros s Is. rewrite (S3 s Is). lia.
  - unfold sizes. rewrite total_repeat. unfold lenZ in *. lia.
  - assert (S1 : forall s, In s sizes -> 1 <= s) by (intros s Is; rewrite (S3 s Is); lia).
    rewrite repeat_length, Nat.min_id, Ls in Lp. assert (Lk : lenZ (holes p) = k) by (unfold lenZ; lia).
    destruct (to_polygon_spec _ _ _ _ _ _ S1 E) as (_ & B3 & Ho & _).
    assert (T : forall vs, In vs (holes p) -> lenZ vs = 3).
    { intros vs Hv. destruct (polygon_holes _ _ _ _ _ _ E) as (_ & Sm). destruct (Sm 3%nat ltac:(intros s Is; rewrite (S3 s Is); lia) vs Hv) as (pts & I & Lpt).
      rewrite Forall_forall in F. destruct (F vs Hv) as ((Nv & _) & _). pose proof (three_long vs pts Nv I Lpt). pose proof (proj2 (Ho vs Hv)). unfold lenZ. lia. }
    assert (B : lenZ (border p) = 3).
    { destruct (to_polygon_border ctx _ N (proj1 C _) (proj2 C) 3 sizes _ p S1 E) as ((Nb & _) & _).
      assert (length (border p) <= 3)%nat; [|unfold lenZ; lia]. eapply three_long; [exact Nb| |apply (Nat.le_refl 3 : (length [corner_a r o; corner_b r o; corner_c r o] <= 3)%nat)].
      intros v Hv. apply flat_hull; [exact Pr|exact R5|]. eapply first_border; [exact C|exact N|exact Sp| |exact S1|exact E|exact Hv]. lia. }
    exists p. split; [|auto]. unfold to_polygon_strategy. cbv zeta. apply gen_pfilter. split.
    + apply gen_bind. exists (flat_points r o). split.
      { apply gen_pfilter. split.
        - replace (match mx, hmx, smx with Some m, Some c, Some s => Some (m + s * c) | _, _, _ => None end) with (max_vertices mx hmx smx).
          2: { unfold max_vertices, max_product. destruct mx, hmx, smx; try reflexivity. f_equal. lia. }
          apply flat_generated; auto; lia.
        - apply andb_true_iff. split; [destruct mx as [m|]; [|reflexivity]; apply Z.leb_le; specialize (Hm m eq_refl); unfold lenZ; lia|]. apply Z.leb_le. unfold lenZ in *. lia. }
      apply gen_bind. exists 3. split.
      { apply gen_integers. split; [unfold lenZ; lia|]. destruct mx as [m|]; [specialize (Hm m eq_refl)|]; lia. }
      apply gen_bind. exists sizes. split.
      { unfold to_hole_sizes. cbv zeta. set (inner := lenZ (flat_points r o) - lenZ (to_max_convex_hull (flat_points r o))).
        assert (Hi : 3 * k <= inner) by (unfold inner; unfold lenZ in *; lia).
        destruct (Z.leb_spec 3 inner) as [Y|Y]; [|apply gen_ret; unfold sizes; replace k with 0 by lia; reflexivity].
        apply gen_bind. exists k. split.
        - apply gen_integers. split; [exact Hk|]. assert (k <= inner / 3) by (apply Z.div_le_lower_bound; lia). unfold min_opt. destruct hmx as [m|]; [specialize (Hx m eq_refl); lia|assumption].
        - unfold to_hole_sizes_. destruct (Z.eqb_spec k 0) as [->|Nk]; [apply gen_ret; reflexivity|].
          destruct (spread_some k 3 inner ltac:(lia)) as (l & El). apply gen_bind. exists l. split; [apply gen_lift; exact El|]. apply gen_bind. exists l.
          split; [apply gen_permutations; reflexivity|]. apply (repeat_drawn 3 k inner l El). lia. }
      apply gen_bind. exists (repeat true (length sizes)). split; [apply gen_bits, repeat_length|]. apply gen_lift. exact E.
    + unfold polygon_has_valid_sizes. apply andb_true_iff. split; [apply size_valid; rewrite B; split; [lia|exact Hm]|].
      apply valid_sizes; [rewrite Lk; split; [exact Hk|exact Hx]|]. intros vs Hv. rewrite (T vs Hv). split; [lia|exact Hc].
Qed.

Lemma polygon_reached ctx xs ys mx hmn hmx smx k : contracts ctx -> (forall l, is_hull l (ctx_hull ctx l)) -> draws_upto xs ys ((6 * k + 7) ^ (6 * k + 6)) ->
  0 <= hmn -> hmn <= k -> (forall m, mx = Some m -> 3 <= m) -> (forall m, hmx = Some m -> k <= m) -> (forall c, smx = Some c -> 3 <= c) ->
  enough_points (3 + 3 * hmn) (max_vertices mx hmx smx) (3 + 3 * k) -> enough_fuel ctx (Z.to_nat (6 * k + 6)) ->
  exists p, generates (to_polygon_strategy ctx xs ys 3 mx hmn hmx 3 smx) p /\ lenZ (border p) = 3 /\ lenZ (holes p) = k /\ (forall vs, In vs (holes p) -> lenZ vs = 3).
Proof.
  intros C Hull D H0 Hk Hm Hx Hc He Fu. destruct (least_enough (3 + 3 * hmn) (max_vertices mx hmx smx) (3 + 3 * k) ltac:(lia) ltac:(lia) He) as (r & Pr & R5 & Rk & Rm).
  destruct (flat_drawn r (6 * k + 6) xs ys R5 ltac:(lia)) as (Dx & Dy); [replace (6 * k + 6 + 1) with (6 * k + 7) by lia; exact D|].
  apply (polygon_flat ctx xs ys mx hmn hmx smx k r 0); auto; [lia|]. apply (enough_mono ctx (Z.to_nat (6 * k + 6))); [lia|exact Fu].
Qed.

(** ** The public API. *)
Lemma good_max mn mx l : ~ bad_sizes mn mx l -> forall m, mx = Some m -> mn <= m /\ l <= m.
Proof.
  intros H m ->. unfold bad_sizes in H. destruct (Z_lt_le_dec m mn); destruct (Z_lt_le_dec m l); try (split; lia); exfalso; apply H; exists m; split; auto.
Qed.
Lemma multicontours_number ctx xs ys mn mx cmn cmx w s mc : multicontours ctx xs ys mn mx cmn cmx = Ok (w, s) -> generates s mc ->
  enough_points (Z.max mn 2 * Z.max cmn 3) (max_product mx cmx) (lenZ mc * Z.max cmn 3).
Proof.
  intros H G. unfold multicontours in H. validate_hyp; try discriminate. injection H as <- <-.
  change MIN_MULTICONTOUR_SIZE with 2 in G. change MIN_CONTOUR_SIZE with 3 in G. eapply multicontour_number; [| |exact G]; lia.
Qed.
Lemma multicontours_reached ctx xs ys mn mx cmn cmx w s k : (forall n, (2 <= n)%nat -> is_change n (ctx_coins ctx n)) ->
  multicontours ctx xs ys mn mx cmn cmx = Ok (w, s) -> cmn <= 3 -> size_ok k (Z.max mn 2) mx -> draws_upto xs ys ((6 * k + 1) ^ (6 * k)) -> enough_fuel ctx (Z.to_nat (6 * k)) ->
  ((exists mc, generates s mc /\ lenZ mc = k) <-> enough_points (Z.max mn 2 * 3) (max_product mx cmx) (k * 3)) /\
  ((exists mc, generates s mc /\ lenZ mc = k) -> exists mc, generates s mc /\ lenZ mc = k /\ forall vs, In vs mc -> lenZ vs = 3).
Proof.
  intros Coins H Hc (K1 & K2) D Fu.
  assert (A : enough_points (Z.max mn 2 * 3) (max_product mx cmx) (k * 3) -> exists mc, generates s mc /\ lenZ mc = k /\ forall vs, In vs mc -> lenZ vs = 3).
  { intros He. unfold multicontours in H. validate_hyp; try discriminate. injection H as <- <-.
    change MIN_MULTICONTOUR_SIZE with 2 in *. change MIN_CONTOUR_SIZE with 3 in *. replace (Z.max cmn 3) with 3 by lia.
    apply multicontour_reached; auto; [lia|]. intros c E. match goal with K : ~ bad_sizes cmn cmx 3 |- _ => apply (good_max _ _ _ K c E) end. }
  assert (B : (exists mc, generates s mc /\ lenZ mc = k) -> enough_points (Z.max mn 2 * 3) (max_product mx cmx) (k * 3)).
  { intros (mc & G & <-). pose proof (multicontours_number _ _ _ _ _ _ _ _ _ _ H G) as X. replace (Z.max cmn 3) with 3 in X by lia. exact X. }
  split; [split; [exact B|]|]; [intros He; destruct (A He) as (mc & G & L & _); exists mc; auto|]. intros X. apply A, B, X.
Qed.
Lemma polygons_number ctx xs ys mn mx hmn hmx smn smx w s p : contracts ctx -> polygons ctx xs ys mn mx hmn hmx smn smx = Ok (w, s) -> generates s p ->
  enough_points (Z.max mn 3 + Z.max smn 3 * Z.max hmn 0) (max_vertices mx hmx smx) (3 + Z.max smn 3 * lenZ (holes p)).
Proof.
  intros C H G. unfold polygons in H. validate_hyp; try discriminate. injection H as <- <-.
  change MIN_CONTOUR_SIZE with 3 in G. eapply polygon_number; [exact C| | | |exact G]; lia.
Qed.
Lemma polygons_reached ctx xs ys mn mx hmn hmx smn smx w s k : contracts ctx -> (forall l, is_hull l (ctx_hull ctx l)) ->
  polygons ctx xs ys mn mx hmn hmx smn smx = Ok (w, s) -> mn <= 3 -> smn <= 3 -> size_ok k (Z.max hmn 0) hmx -> draws_upto xs ys ((6 * k + 7) ^ (6 * k + 6)) ->
  enough_fuel ctx (Z.to_nat (6 * k + 6)) ->
  ((exists p, generates s p /\ lenZ (holes p) = k) <-> enough_points (3 + 3 * Z.max hmn 0) (max_vertices mx hmx smx) (3 + 3 * k)) /\
  ((exists p, generates s p /\ lenZ (holes p) = k) -> exists p, generates s p /\ lenZ (border p) = 3 /\ lenZ (holes p) = k /\ forall vs, In vs (holes p) -> lenZ vs = 3).
Proof.
  intros C Hull H Hm Hs (K1 & K2) D Fu.
  assert (A : enough_points (3 + 3 * Z.max hmn 0) (max_vertices mx hmx smx) (3 + 3 * k) ->
    exists p, generates s p /\ lenZ (border p) = 3 /\ lenZ (holes p) = k /\ forall vs, In vs (holes p) -> lenZ vs = 3).
  { intros He. unfold polygons in H. validate_hyp; try discriminate. injection H as <- <-.
    change MIN_CONTOUR_SIZE with 3 in *. replace (Z.max mn 3) with 3 by lia. replace (Z.max smn 3) with 3 by lia.
    apply polygon_reached; auto; [lia| |]; intros c E; [match goal with K : ~ bad_sizes mn mx 3 |- _ => apply (good_max _ _ _ K c E) end|match goal with K : ~ bad_sizes smn smx 3 |- _ => apply (good_max _ _ _ K c E) end]. }
  assert (B : (exists p, generates s p /\ lenZ (holes p) = k) -> enough_points (3 + 3 * Z.max hmn 0) (max_vertices mx hmx smx) (3 + 3 * k)).
  { intros (p & G & <-). pose proof (polygons_number _ _ _ _ _ _ _ _ _ _ _ _ C H G) as X. replace (Z.max mn 3) with 3 in X by lia. replace (Z.max smn 3) with 3 in X by lia. exact X. }
  split; [split; [exact B|]|]; [intros He; destruct (A He) as (p & G & _ & L & _); exists p; auto|]. intros X. apply A, B, X.
Qed.

(** With triangles only, the largest numbers are out of reach. *)
Lemma composite n : 2 <= n -> ~ prime (3 * n).
Proof. intros Hn P. destruct (prime_divisors _ P 3) as [E|[E|[E|E]]]; [exists n; ring|lia..]. Qed.
Lemma not_enough mn n : 2 <= n -> prime_between mn (Some (3 * n)) -> ~ enough_points mn (Some (3 * n)) (3 * n).
Proof.
  intros Hn P (q & Pq & Q3 & Qn & Q). destruct (P _ eq_refl) as (r & Pr & R3 & Rm). destruct (Q _ eq_refl) as [K|K].
  - apply (composite n Hn). replace (3 * n) with q by lia. exact Pq.
  - assert (q <= r) by (apply K; [exact Pr|exact R3|lia]). apply (composite n Hn). replace (3 * n) with q by lia. exact Pq.
Qed.
Lemma multicontours_missed ctx xs ys mn m cmn w s mc : multicontours ctx xs ys mn (Some m) cmn (Some 3) = Ok (w, s) ->
  prime_between (3 * Z.max mn 2) (Some (3 * m)) -> generates s mc -> lenZ mc < m.
Proof.
  intros H P G. pose proof (multicontours_number _ _ _ _ _ _ _ _ _ _ H G) as X. unfold multicontours in H. validate_hyp; try discriminate. injection H as <- <-.
  change MIN_CONTOUR_SIZE with 3 in G.
  pose proof (multicontour_strategy_spec ctx xs ys _ _ (Z.max cmn 3) _ mc ltac:(lia) G) as ((L1 & L2) & _). specialize (L2 m eq_refl).
  change MIN_MULTICONTOUR_SIZE with 2 in *. change MIN_CONTOUR_SIZE with 3 in *. destruct (Z.eq_dec (lenZ mc) m) as [E|]; [|lia]. exfalso.
  assert (C3 : Z.max cmn 3 = 3) by (match goal with K : ~ bad_sizes cmn _ 3 |- _ => destruct (good_max _ _ _ K 3 eq_refl) end; lia).
  rewrite C3, E in X. cbn [max_product] in X. replace (m * 3) with (3 * m) in X by lia. replace (Z.max mn 2 * 3) with (3 * Z.max mn 2) in X by lia.
  exact (not_enough _ m ltac:(lia) P X).
Qed.
Lemma polygon_strategy_sizes ctx xs ys mn mx hmn hmx smn smx p : generates (to_polygon_strategy ctx xs ys mn mx hmn hmx smn smx) p ->
  size_ok (lenZ (border p)) mn mx /\ size_ok (lenZ (holes p)) hmn hmx /\ forall vs, In vs (holes p) -> size_ok (lenZ vs) smn smx.
Proof.
  intros H. unfold to_polygon_strategy in H. cbv zeta in H. apply gen_pfilter in H. destruct H as (_ & H). unfold polygon_has_valid_sizes in H.
  apply andb_true_iff in H. destruct H as (H1 & H2). split; [apply size_valid, H1|]. apply multicontour_sizes_valid, H2.
Qed.
Lemma polygons_missed ctx xs ys mn hmn m smn w s p : contracts ctx -> polygons ctx xs ys mn (Some 3) hmn (Some m) smn (Some 3) = Ok (w, s) -> 1 <= m ->
  prime_between (3 + 3 * Z.max hmn 0) (Some (3 + 3 * m)) -> generates s p -> lenZ (holes p) < m.
Proof.
  intros C H Hm P G. pose proof (polygons_number _ _ _ _ _ _ _ _ _ _ _ _ C H G) as X.
  unfold polygons in H. validate_hyp; try discriminate. injection H as <- <-.
  pose proof (polygon_strategy_sizes _ _ _ _ _ _ _ _ _ _ G) as (_ & (L1 & L2) & _). specialize (L2 m eq_refl). change MIN_CONTOUR_SIZE with 3 in *.
  destruct (Z.eq_dec (lenZ (holes p)) m) as [E|]; [|lia]. exfalso.
  assert (C3 : Z.max smn 3 = 3) by (match goal with K : ~ bad_sizes smn _ 3 |- _ => destruct (good_max _ _ _ K 3 eq_refl) end; lia).
  assert (C4 : Z.max mn 3 = 3) by (match goal with K : ~ bad_sizes mn _ 3 |- _ => destruct (good_max _ _ _ K 3 eq_refl) end; lia).
  rewrite C3, C4, E in X. cbn [max_vertices max_product] in X. replace (3 + m * 3) with (3 * (1 + m)) in X by lia. replace (3 + 3 * m) with (3 * (1 + m)) in X, P by lia.
  exact (not_enough _ (1 + m) ltac:(lia) P X).
Qed.
