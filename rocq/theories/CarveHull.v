(** The hull of points in general position and the contour carved out of them. *)
From Coq Require Import List Lia Permutation.
From Verif Require Import Base Utils Geometry Ctx Spec WindSpec QcTac QcFast GeomProofs ListProofs LoopProofs CycEdge
  QuadEdge Triangulation Factories QuadProofs TriProofs ConvexProofs ValtrProofs CarveProofs MultiProofs DelGeo DelCyc DelMap DelCarve DelHull DelBorder DelMouth DelRim
  Jordan DelGreen DelPoly DelTotal DelPolyTotal DelContour GeneralProofs.
Import ListNotations.
Open Scope nat_scope.

Lemma edge_before vs b : In b vs -> exists a, contour_edge vs a b.
Proof. intros H. destruct (DelMouth.ces_pred vs b H) as (a & E). exists a. apply ces_edge, E. Qed.
Lemma edge_after vs a : In a vs -> exists b, contour_edge vs a b.
Proof. intros H. destruct (ces_out vs a H) as (b & E). exists b. apply ces_edge, E. Qed.
(** Two hulls have the same vertices. *)
Lemma hulls_agree l h k : is_hull l h -> is_hull l k -> 3 <= length h -> 3 <= length k -> incl h k.
Proof.
  intros (Nh & Ih & Rh & Ch) Hk L3 L3k p Hp. specialize (Ch L3).
  destruct (edge_before h p Hp) as (o & Eo). destruct (edge_after h p Hp) as (q & Eq).
  pose proof (edges_turn h o p q Nh Eo Eq) as T. pose proof (convex_turns h Ch o p q T) as T'.
  destruct (hull_extreme l k (fun z => ((py o - py p) + (py p - py q)) * px z + ((px p - px o) + (px q - px p)) * py z)%Qc
    ((py o - py p) + (py p - py q)) ((px p - px o) + (px q - px p)) (fun z => eq_refl) Hk L3k p (Ih p Hp)) as (v & Iv & Hv).
  assert (Lv : In v l) by (apply Hk, Iv).
  pose proof (Rh o p Eo v Lv) as A. pose proof (Rh p q Eq v Lv) as B. apply Qcnot_lt_le in A. apply Qcnot_lt_le in B.
  assert (Sum : (cross o p v + cross p q v <= 0)%Qc).
  { assert (Id : (cross o p v + cross p q v = ((py o - py p + (py p - py q)) * px v + (px p - px o + (px q - px p)) * py v)
      - ((py o - py p + (py p - py q)) * px p + (px p - px o + (px q - px p)) * py p))%Qc) by (unfold cross; ring).
    rewrite Id. clear - Hv. ql. }
  assert (Z1 : cross o p v = Q2Qc 0) by (clear - A B Sum; apply Qcle_antisym; ql).
  assert (Z2 : cross p q v = Q2Qc 0) by (clear - A B Sum; apply Qcle_antisym; ql).
  assert (E : v = p); [|rewrite <- E; exact Iv].
  assert (NZ : cross o p q <> Q2Qc 0) by (intros E; unfold left_turn in T'; rewrite E in T'; apply (Qclt_not_eq _ _ T'); reflexivity).
  assert (X : ((px v - px p) * cross o p q = (px q - px p) * cross o p v - (px p - px o) * cross p q v)%Qc) by (unfold cross; ring).
  assert (Y : ((py v - py p) * cross o p q = (py q - py p) * cross o p v - (py p - py o) * cross p q v)%Qc) by (unfold cross; ring).
  rewrite Z1, Z2 in X, Y.
  assert (D : forall a b : Qc, ((a - b) * cross o p q = Q2Qc 0)%Qc -> a = b).
  { intros a b H. apply Qcmult_integral in H. destruct H as [H|H]; [|contradiction]. replace a with (a - b + b)%Qc by ring. rewrite H. ring. }
  clear Z1 Z2. destruct v as (vx, vy), p as (x, y). cbn [px py] in X, Y. f_equal; apply D.
  - rewrite X. ring.
  - rewrite Y. ring.
Qed.

(** What a hull and a contour that keeps one say about every hull. *)
Lemma kept_hull points hull k vs size : is_hull points hull -> 3 <= length hull -> NoDup vs -> incl vs points ->
  convex_ccw k -> incl k points -> (forall a b, contour_edge k a b -> forall c, In c points -> c <> a -> c <> b -> left_turn a b c) ->
  incl k vs -> (lenZ vs <= Z.max (lenZ k) size)%Z -> (length vs = length k -> forall a b, contour_edge vs a b <-> contour_edge k a b) ->
  incl hull vs /\ (lenZ vs <= Z.max (lenZ hull) size)%Z /\ ((size <= lenZ hull)%Z -> convex_ccw vs /\ incl vs hull).
Proof.
  intros Hh H3 Nv Iv Ck Ik Lk Kv Sz Same.
  assert (Hk : is_hull points k).
  { split; [apply Ck|]. split; [exact Ik|]. split; [|intros _; exact Ck].
    intros a b Eab c Ic. destruct (point_eq_dec c a) as [->|n1]; [|destruct (point_eq_dec c b) as [->|n2]].
    - intros H. apply (Qclt_not_eq _ _ H). unfold cross. ring.
    - intros H. apply (Qclt_not_eq _ _ H). unfold cross. ring.
    - intros H. apply (Qclt_not_le _ _ H), Qclt_le_weak, (Lk a b Eab c Ic n1 n2). }
  pose proof (proj1 Ck) as K3.
  pose proof (hulls_agree _ _ _ Hh Hk H3 K3) as I1. pose proof (hulls_agree _ _ _ Hk Hh K3 H3) as I2.
  assert (El : length hull = length k) by (apply Nat.le_antisymm; apply NoDup_incl_length; [apply (proj1 Hh)|exact I1|apply (proj1 Hk)|exact I2]).
  split; [intros p Hp; apply Kv, I1, Hp|]. unfold lenZ in *. rewrite El. split; [exact Sz|]. intros Hs.
  assert (Ev : length vs = length k) by (pose proof (NoDup_incl_length (proj1 Hk) Kv); lia).
  assert (Ivk : incl vs k) by (apply NoDup_length_incl; [apply (proj1 Hk)|lia|exact Kv]).
  split; [|intros p Hp; apply I2, Ivk, Hp]. split; [lia|]. split; [exact Nv|]. intros a b Eab c Ic n1 n2. apply (Same Ev) in Eab. apply (Lk a b Eab); auto.
Qed.
Lemma carve_hull ctx points size hull : (forall n, 2 <= n -> is_change n (ctx_coins ctx n)) ->
  NoDup points -> 3 <= length points -> no_three points -> enough_fuel ctx (length points) ->
  is_hull points hull -> 3 <= length hull ->
  exists vs, to_vertex_sequence ctx points size = Ok vs /\ incl hull vs /\ (lenZ vs <= Z.max (lenZ hull) size)%Z
    /\ ((size <= lenZ hull)%Z -> convex_ccw vs /\ incl vs hull).
Proof.
  intros Coins N L3 G Fu Hh H3.
  destruct (carve_ok ctx Coins points size N L3 G Fu) as (vs & E & Cc & _ & Iv).
  destruct (hull_kept ctx points N L3 G (Coins (length points) ltac:(lia)) Fu size) as (vs' & k & E' & Ck & Ik & Lk & Kv & Sz & Same).
  rewrite E in E'. injection E' as <-.
  exists vs. split; [exact E|]. apply (kept_hull points hull k vs size); auto. apply Cc.
Qed.

(** ** Borders of polygons. *)
Section B.
Context (ctx : context) (points : list point) (N : NoDup points) (L3 : 3 <= length points) (G : no_three points).
Context (Coins : 2 <= length points -> is_change (length points) (ctx_coins ctx (length points))).
Context (Near : forall l s, l <> [] -> is_nearest l s (ctx_nearest ctx l s)).
Let S := isort point_leb points.
Lemma border_kept size sizes choices p : (forall s, In s sizes -> (1 <= s)%Z) -> to_polygon ctx points size sizes choices = Ok p ->
  exists k, convex_ccw k /\ incl k points /\ (forall a b, contour_edge k a b -> forall c, In c points -> c <> a -> c <> b -> left_turn a b c)
  /\ incl k (border p) /\ (lenZ (border p) <= Z.max (lenZ k) size)%Z /\ (length (border p) = length k -> forall a b, contour_edge (border p) a b <-> contour_edge k a b).
Proof.
  intros Hs H. unfold to_polygon in H. apply rbind_ok in H. destruct H as ((t & h) & H1 & H).
  apply rbind_ok in H. destruct H as (es & H2 & H). apply rbind_ok in H. destruct H as ((hs & bp) & H3 & H).
  apply rbind_ok in H. destruct H as (cands & H4 & H). apply rbind_ok in H. destruct H as (st & H5 & H).
  apply rbind_ok in H. destruct H as (bv & H6 & H). apply rbind_ok in H. destruct H as (u & _ & H). injection H as <-.
  cbn [border holes] in *.
  unfold triangulation_to_border_vertices in H6. apply rbind_ok in H6. destruct H6 as (es' & H6 & H7). injection H7 as <-.
  pose proof (general_spread points N L3 G) as NC.
  assert (GS : no_three S) by (intros a b c Ia Ib Ic; apply isort_in in Ia, Ib, Ic; apply G; assumption).
  destruct (border_start ctx points N Coins t h es hs bp cands sizes choices Hs NC H1 H2 H3 H4) as (Ends & Rest & HQS & P & m & bd & I0 & Hl). fold S in I0, Hl.
  set (hes := flat_map contour_segments hs) in *. set (L := List.map (start h) es) in *. set (HQ := fun q => exists vs, In vs hs /\ In q vs) in *.
  pose proof I0 as [R K Cy _ _ _ _ _ _ _ _ _]. pose proof (k_laws _ _ _ K) as W.
  pose proof (CompressProofs.compress_unchanged L (bent_cycle S GS m bd K L Cy)) as U.
  set (Q := fun st => exists P m bd1 L1, binv hes S bp HQ st P m bd1 L1 /\ incl L L1 /\ length L <= length L1 /\ (length L1 = length L -> forall a b, bd1 a b <-> bd a b)
    /\ p_size st = lenZ L1 /\ (lenZ L1 <= Z.max (lenZ L) size)%Z).
  apply (while_ok Q Q) in H5.
  2: { intros s (P1 & m1 & bd1 & L1 & I1 & A1 & A2 & A3 & A4 & A5). pose proof (border_step_more ctx hes S bp HQ Near Ends Rest HQS (ctx_fuel ctx) size s P1 m1 bd1 L1 I1) as X.
       destruct (border_step _ _ _ _ s) as [[s'|s']|x]; [| |exact I].
       - destruct X as (P2 & m2 & bd2 & L2 & I2 & _ & B1 & B2 & B3 & B4 & B5). exists P2, m2, bd2, L2. split; [exact I2|].
         split; [intros q Hq; apply B1, A1, Hq|]. split; [lia|]. split; [intros E; rewrite B3 by lia; apply A3; lia|]. unfold lenZ in *. split; [lia|].
         lia.
       - subst s'. exists P1, m1, bd1, L1. auto 10. }
  2: { exists P, m, bd, L. split; [exact I0|]. split; [apply incl_refl|]. split; [lia|]. split; [reflexivity|]. cbn [p_size]. rewrite U. split; [reflexivity|lia]. }
  destruct H5 as (P1 & m1 & bd1 & L1 & [R1 K1 Cy1 Lf1 _ _ _ _ _ _ _ _] & A1 & A2 & A3 & _ & A5).
  pose proof (boundary_again _ P1 S m1 bd1 _ _ es' L1 R1 K1 Lf1 H6 Cy1) as Cy2. set (L2 := List.map (start (p_heap st)) es') in *.
  pose proof (same_cycle bd1 L1 L2 Cy1 Cy2) as P12.
  rewrite (CompressProofs.compress_unchanged L2 (bent_cycle S GS m1 bd1 K1 L2 Cy2)).
  assert (Lt : forall a b, contour_edge L a b -> forall c, In c points -> c <> a -> c <> b -> left_turn a b c).
  { intros a b E c Ic n1 n2. apply ces_edge, Cy in E. pose proof (k_bd _ _ _ K _ _ E) as M. pose proof (l_in _ _ W _ _ M) as Ia. pose proof (l_in _ _ W _ _ (l_sym _ _ W _ _ M)) as Ib.
    assert (n3 : a <> b) by (intros ->; apply (l_ne _ _ W _ _ M); reflexivity). assert (Ic' : In c S) by (apply isort_in, Ic).
    pose proof (GS a b c Ia Ib Ic' n3 ltac:(auto) ltac:(auto)) as X. pose proof (Hl a b E c Ic') as A. unfold left_turn. destruct (Qcle_lt_or_eq _ _ A) as [Y|Y]; [exact Y|]. destruct X. symmetry. exact Y. }
  assert (Il : incl L points) by (intros q Hq; destruct (ces_out _ _ Hq) as (r & Hr); apply Cy in Hr; apply (isort_in point_leb points), (l_in _ _ W _ _ (k_bd _ _ _ K _ _ Hr))).
  exists L. split; [split; [apply (cycle_three S m _ K L Cy)|]; split; [apply Cy|]; intros a b E c Ic; apply Lt; auto|]. split; [exact Il|]. split; [exact Lt|].
  split; [intros q Hq; apply (Permutation_in _ P12), A1, Hq|]. unfold lenZ in *. rewrite <- (Permutation_length P12). split; [exact A5|].
  intros E a b. rewrite <- !ces_edge. destruct Cy2 as (_ & _ & Cy2), Cy as (_ & _ & Cy). rewrite <- Cy2, <- Cy. apply A3, E.
Qed.
End B.
Lemma border_hull ctx points size sizes choices p hull : (forall n, 2 <= n -> is_change n (ctx_coins ctx n)) ->
  (forall l s, l <> [] -> is_nearest l s (ctx_nearest ctx l s)) -> NoDup points -> 3 <= length points -> no_three points ->
  (forall s, In s sizes -> (1 <= s)%Z) -> to_polygon ctx points size sizes choices = Ok p -> is_hull points hull -> 3 <= length hull ->
  incl hull (border p) /\ (lenZ (border p) <= Z.max (lenZ hull) size)%Z /\ ((size <= lenZ hull)%Z -> convex_ccw (border p) /\ incl (border p) hull).
Proof.
  intros Coins Near N L3 G Hs H Hh H3.
  destruct (to_polygon_border ctx points N (Coins _) Near size sizes choices p Hs H) as (J & _ & _ & _ & Ib & _).
  destruct (border_kept ctx points N L3 G (Coins _) Near size sizes choices p Hs H) as (k & Ck & Ik & Lk & Kv & Sz & Same).
  apply (kept_hull points hull k (border p) size); auto. apply J.
Qed.
