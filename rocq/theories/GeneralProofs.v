(** Contours, multicontours and holes made of points in general position. *)
From Coq Require Import List Lia Znumtheory Permutation Sorted.
From Verif Require Import Base Prog Geometry Ctx Utils Contracts Spec RangeSpec WindSpec GeneralSpec HullSpec Factories Triangulation Strategies Planar ProgProofs
  LoopProofs ListProofs PrimeProofs GridProofs PlanarProofs QcTac QcFast GeomProofs HullProofs RangeProofs RangeApiProofs ContourProofs FaultProofs FuelProofs
  SegmentProofs EdgeProofs SeparationProofs HelperProofs CarveProofs MultiProofs SequenceProofs CompressProofs CyclicProofs BorderProofs CycEdge
  DelTotal DelCyc DelWind Jordan DelPoly DelPolyTotal DelContour PolyFaultProofs.
Import List ListNotations.
Open Scope Z_scope.

(** ** General position. *)
Lemma general_no_three l : in_general_position l <-> no_three l.
Proof.
  split; intros H a b c Ia Ib Ic n1 n2 n3; [apply (H a b c); auto|]. intros E. revert E. apply (H a b c); auto.
Qed.
Lemma no_three_incl l m : incl m l -> no_three l -> no_three m.
Proof. intros I H a b c Ia Ib Ic. apply H; apply I; assumption. Qed.
Lemma grid_general xs ys mn mx l : general_coordinates xs ys ->
  generates (to_point_sequence_in_general_position_strategy xs ys mn mx) l -> no_three l.
Proof.
  intros G H. apply grid_sparse_spec in H. destruct H as (_ & _ & _ & Tx & Ty & D). intros a b c Ia Ib Ic n1 n2 n3 E.
  destruct (G a b c (D _ Ia) (D _ Ib) (D _ Ic) ltac:(auto) ltac:(auto) ltac:(auto) E) as [(e1 & e2)|(e1 & e2)].
  - destruct (Tx a b c Ia Ib Ic e1 ltac:(congruence)) as [K|[K|K]]; congruence.
  - destruct (Ty a b c Ia Ib Ic e1 ltac:(congruence)) as [K|[K|K]]; congruence.
Qed.

(** ** Reversing a contour. *)
Lemma on_segment_swap p a b : on_segment p a b -> on_segment p b a.
Proof.
  intros (t & t0 & t1 & X & Y). exists (1 - t)%Qc. split; [ql|]. split; [ql|]. rewrite X, Y. split; ring.
Qed.
Lemma reverse_nodup vs : NoDup vs -> NoDup (reverse_vertices vs).
Proof.
  destruct vs as [|v l]; intros H; [constructor|]. change (reverse_vertices (v :: l)) with (v :: rev l). inversion H; subst.
  constructor; [intros K; apply in_rev in K; contradiction|apply NoDup_rev; assumption].
Qed.
Lemma reverse_jordan vs : jordan vs -> jordan (reverse_vertices vs).
Proof.
  intros (N & J). split; [apply reverse_nodup, N|]. intros a b c d p H1 H2 D O1 O2. apply reverse_edge in H1, H2.
  destruct (J b a d c p H1 H2) as [(e1 & e2)|(e1 & e2)]; [congruence|apply on_segment_swap; assumption..| |]; [right|left]; auto.
Qed.
Lemma turn_edges vs a b c : contour_turn vs a b c -> contour_edge vs a b /\ contour_edge vs b c.
Proof.
  intros (i & Ha & Hb & Hc). assert (L : (i < length vs)%nat) by (apply nth_error_Some; congruence). split; [exists i; auto|].
  exists (S i mod length vs)%nat. split; [exact Hb|]. rewrite <- Hc. f_equal.
  change (S (S i mod length vs)) with (1 + S i mod length vs)%nat. rewrite Nat.add_mod_idemp_r by lia. reflexivity.
Qed.
Lemma edges_turn vs a b c : NoDup vs -> contour_edge vs a b -> contour_edge vs b c -> contour_turn vs a b c.
Proof.
  intros N (i & Ha & Hb) (j & Hb' & Hc). assert (L : (i < length vs)%nat) by (apply nth_error_Some; congruence).
  assert (E : j = (S i mod length vs)%nat) by (apply (proj1 (NoDup_nth_error vs) N); [apply nth_error_Some; congruence|congruence]).
  exists i. split; [exact Ha|]. split; [exact Hb|]. rewrite <- Hc, E. f_equal.
  change (S (S i mod length vs)) with (1 + S i mod length vs)%nat. rewrite Nat.add_mod_idemp_r by lia. reflexivity.
Qed.
Lemma reverse_all_strict vs : NoDup vs -> strict vs -> strict (reverse_vertices vs).
Proof.
  intros N H a b c T E. apply turn_edges in T. destruct T as (T1 & T2). apply reverse_edge in T1, T2.
  apply (H c b a (edges_turn vs _ _ _ N T2 T1)). revert E. unfold collinear. intros E. transitivity (- cross a b c)%Qc; [unfold cross; ring|rewrite E; reflexivity].
Qed.
Fixpoint path_sum (l : list point) : Qc :=
  match l with
  | a :: (b :: _) as r => (px a * py b - px b * py a + path_sum r)%Qc
  | _ => 0%Qc
  end.
Lemma path_app l a m : path_sum (l ++ a :: m) = (path_sum (l ++ [a]) + path_sum (a :: m))%Qc.
Proof.
  induction l as [|x [|y l] IH]; cbn [app].
  - cbn [path_sum]. destruct m; ring.
  - cbn [path_sum]. ring.
  - cbn [app] in IH. cbn [path_sum]. cbn [path_sum] in IH. rewrite IH. ring.
Qed.
Lemma path_rev l : path_sum (rev l) = (- path_sum l)%Qc.
Proof.
  induction l as [|x [|y l] IH]; [cbn; ring|cbn; ring|]. cbn [rev]. cbn [rev] in IH. rewrite <- app_assoc. cbn [app].
  rewrite path_app. rewrite IH. cbn [path_sum]. ring.
Qed.
Lemma cycle_path : forall (l : list point) v r, fold_right Qcplus 0%Qc (map (fun e => px (fst e) * py (snd e) - px (snd e) * py (fst e))%Qc (combine (v :: l) (l ++ [r]))) = path_sum (v :: l ++ [r]).
Proof.
  induction l as [|x l IH]; intros v r; [reflexivity|]. cbn [app combine map fold_right fst snd]. change (path_sum (v :: x :: l ++ [r])) with (px v * py x - px x * py v + path_sum (x :: l ++ [r]))%Qc.
  rewrite <- IH. reflexivity.
Qed.
Lemma signed_path v l : signed_area (v :: l) = path_sum (v :: l ++ [v]).
Proof. unfold signed_area, cycle_edges. apply cycle_path. Qed.
Lemma reverse_area vs : signed_area (reverse_vertices vs) = (- signed_area vs)%Qc.
Proof.
  destruct vs as [|v l]; [cbn; ring|]. change (reverse_vertices (v :: l)) with (v :: rev l). rewrite !signed_path, <- path_rev. f_equal.
  cbn [rev]. rewrite rev_app_distr. reflexivity.
Qed.

(** ** Pieces. *)
Lemma turned vs : counterclockwise vs -> clockwise (reverse_vertices vs).
Proof.
  intros (J & T & A). split; [apply reverse_jordan, J|]. split; [apply reverse_all_strict; [apply J|exact T]|]. rewrite reverse_area. ql.
Qed.
Lemma touch_some k (vs : contour) : vs <> [] -> exists b, touch_predicate k (contour_segments vs) = Ok b.
Proof.
  intros H. assert (Hs : contour_segments vs <> []).
  { intros E. apply H. apply (f_equal (@length _)) in E. rewrite segments_length in E. destruct vs; [reflexivity|discriminate]. }
  unfold touch_predicate. destruct (contour_segments vs); [contradiction|]. destruct k; eexists; reflexivity.
Qed.
Lemma resorted_length (prior : option bool) k (l : list point) :
  length (if match prior with Some k' => Bool.eqb k k' | None => false end then l else sort_points k l) = length l.
Proof. destruct (match prior with Some k' => Bool.eqb k k' | None => false end); [reflexivity|]. unfold sort_points. apply isort_length. Qed.
Lemma py_drop_length {A} (l : list A) i : 0 <= i -> lenZ (py_drop l i) = Z.max 0 (lenZ l - i).
Proof. intros H. rewrite drop_pos by lia. unfold lenZ. rewrite skipn_length. lia. Qed.

Section L.
Context (ctx : context) (Coins : forall n, (2 <= n)%nat -> is_change n (ctx_coins ctx n)).
Definition enough_fuel (n : nat) : Prop := (n * n + 4 * n < Pos.to_nat (ctx_fuel ctx))%nat.
Lemma enough_mono n m : (m <= n)%nat -> enough_fuel n -> enough_fuel m.
Proof. unfold enough_fuel. nia. Qed.
Lemma carve_ok points size : NoDup points -> (3 <= length points)%nat -> no_three points -> enough_fuel (length points) ->
  exists vs, to_vertex_sequence ctx points size = Ok vs /\ counterclockwise vs /\ (3 <= length vs)%nat /\ incl vs points.
Proof.
  intros N L3 G Fu. destruct (to_vertex_sequence_ok ctx points N L3 G (Coins (length points) ltac:(lia)) Fu size) as (vs & H & J & L & T & A & I).
  exists vs. split; [exact H|]. split; [|auto]. split; [exact J|]. split; [exact T|]. rewrite signed_doubled. exact A.
Qed.
Definition total (l : list Z) : Z := fold_right Z.add 0 l.

Lemma multicontour_loop_ok sizes : forall choices prior points result,
  (forall s, In s sizes -> 3 <= s) -> total sizes <= lenZ points -> NoDup points -> no_three points -> enough_fuel (length points) ->
  exists new, multicontour_loop ctx sizes choices prior points result = Ok (result ++ new) /\ Forall counterclockwise new
    /\ length new = Nat.min (length sizes) (length choices).
Proof.
  induction sizes as [|size sizes IH]; intros choices prior points result Hs Ht N G Fu.
  { exists []. cbn. rewrite app_nil_r. auto. }
  destruct choices as [|k choices]; [exists []; cbn; rewrite app_nil_r; auto|]. cbn [multicontour_loop]. cbv zeta.
  pose proof (resorted_length prior k points) as El. set (points' := if (_ : bool) then points else sort_points k points) in *.
  assert (K : NoDup points' /\ incl points' points).
  { unfold points'. destruct (match prior with Some k' => Bool.eqb k k' | None => false end); [split; [exact N|apply incl_refl]|].
    unfold sort_points. split; [apply isort_nodup, N|]. intros p Hp. apply isort_in in Hp. exact Hp. }
  clearbody points'. destruct K as (N' & I'). pose proof (no_three_incl _ _ I' G) as G'.
  pose proof (Hs size (or_introl eq_refl)) as H3. unfold total in Ht. cbn [fold_right] in Ht. fold (total sizes) in Ht.
  assert (H0 : 0 <= total sizes).
  { assert (Hp : forall s, In s sizes -> 3 <= s) by (intros s Is; apply Hs; right; exact Is). clear - Hp.
    induction sizes as [|s l IHl]; cbn [total fold_right]; [lia|]. pose proof (Hp s (or_introl eq_refl)).
    specialize (IHl (fun s Is => Hp s (or_intror Is))). unfold total in IHl. lia. }
  assert (Lt : lenZ (py_take points' size) = size).
  { rewrite py_take_length by lia. unfold lenZ in *. rewrite El. lia. }
  destruct (carve_ok (py_take points' size) size) as (vs & -> & Hc & L3 & Iv).
  - rewrite take_pos by lia. apply firstn_nodup, N'.
  - unfold lenZ in Lt. lia.
  - apply (no_three_incl points'); [|exact G']. intros p Hp. apply py_take_in in Hp. exact Hp.
  - apply (enough_mono (length points)); [|exact Fu]. unfold lenZ in *. lia.
  - cbn [rbind]. change MIN_CONTOUR_SIZE with 3. replace (3 <=? lenZ vs) with true by (symmetry; apply Z.leb_le; unfold lenZ; lia).
    destruct (touch_some k vs) as (b & ->); [intros ->; cbn in L3; lia|]. cbn [rbind]. pose proof (b2z_range b) as Hb.
    destruct (IH choices (Some k) (py_drop points' (size - b2z b)) (result ++ [vs])) as (new & -> & F & Ln).
    + intros s Is. apply Hs. right. exact Is.
    + rewrite py_drop_length by lia. unfold lenZ in *. rewrite El. lia.
    + rewrite drop_pos by lia. apply skipn_nodup, N'.
    + apply (no_three_incl points'); [|exact G']. intros p Hp. apply py_drop_in in Hp. exact Hp.
    + apply (enough_mono (length points)); [|exact Fu]. rewrite drop_pos by lia. rewrite skipn_length. lia.
    + exists (vs :: new). rewrite <- app_assoc. split; [reflexivity|]. split; [constructor; assumption|]. cbn [length]. rewrite Ln. reflexivity.
Qed.

(** The holes are apart from each other and from what remains. *)
Lemma holes_check_ok hs : Forall clockwise hs -> ForallOrdPairs parted hs -> contours_do_not_cross_or_overlap hs = true.
Proof.
  intros F P. destruct (contours_do_not_cross_or_overlap hs) eqn:E; [reflexivity|]. exfalso.
  apply holes_check_fails in E; [|eapply ForallOrdPairs_impl; [|exact P]; apply parted_apart].
  destruct E as (c & i & j & s & t & Ic & Hij & Hi & Hj & M). rewrite Forall_forall in F. destruct (F c Ic) as (J & _).
  assert (L3 : (3 <= length c)%nat \/ (length c < 3)%nat) by lia. destruct L3 as [L3|L3].
  - apply jordan_simple in J; [|exact L3]. apply (simple_apart c J i j s t Hi Hj); [lia|exact M].
  - destruct (F c Ic) as (_ & _ & A). revert A L3. clear. destruct c as [|a [|b [|x c]]]; cbn [length]; intros A L3; [| | |lia].
    all: revert A; unfold signed_area, cycle_edges; cbn [app combine map fold_right fst snd]; intros A; match type of A with (?x < _)%Qc => assert (E : x = 0%Qc) by ring; clear - A E; ql end.
Qed.
Lemma ordpairs_snoc {A} (R : A -> A -> Prop) l x : ForallOrdPairs R l -> Forall (fun y => R y x) l -> ForallOrdPairs R (l ++ [x]).
Proof.
  induction 1 as [|y l Hy F IH]; intros Hx; cbn [app]; [repeat constructor|]. inversion Hx; subst. constructor; [|apply IH; assumption].
  apply Forall_app. split; [exact Hy|]. repeat constructor. assumption.
Qed.
Lemma hole_loop_ok sizes : forall choices prior inner hs bp,
  (forall s, In s sizes -> 3 <= s) -> total sizes <= lenZ inner -> NoDup inner -> no_three inner -> enough_fuel (length inner) ->
  (forall k, prior = Some k -> StronglySorted (kle k) inner) ->
  Forall clockwise hs -> ForallOrdPairs parted hs -> Forall (fun h => parted h inner) hs ->
  exists new bp', hole_loop ctx sizes choices prior inner hs bp = Ok (hs ++ new, bp') /\ Forall clockwise new
    /\ length new = Nat.min (length sizes) (length choices).
Proof.
  induction sizes as [|size sizes IH]; intros choices prior inner hs bp Hs Ht N G Fu So Cw Pa Pi.
  { exists [], bp. cbn. rewrite app_nil_r. auto. }
  destruct choices as [|k choices]; [exists [], bp; cbn; rewrite app_nil_r; auto|]. cbn [hole_loop]. cbv zeta.
  pose proof (resorted_length prior k inner) as El. destruct (resorted prior k inner So) as (S1 & I1 & N1).
  set (inner' := if (_ : bool) then inner else sort_points k inner) in *. clearbody inner'. specialize (N1 N).
  assert (I' : incl inner' inner) by (intros p Hp; apply I1, Hp). pose proof (no_three_incl _ _ I' G) as G'.
  pose proof (Hs size (or_introl eq_refl)) as H3. unfold total in Ht. cbn [fold_right] in Ht. fold (total sizes) in Ht.
  assert (H0 : 0 <= total sizes).
  { assert (Hp : forall s, In s sizes -> 3 <= s) by (intros s Is; apply Hs; right; exact Is). clear - Hp.
    induction sizes as [|s l IHl]; cbn [total fold_right]; [lia|]. pose proof (Hp s (or_introl eq_refl)).
    specialize (IHl (fun s Is => Hp s (or_intror Is))). unfold total in IHl. lia. }
  assert (Lt : lenZ (py_take inner' size) = size).
  { rewrite py_take_length by lia. unfold lenZ in *. rewrite El. lia. }
  destruct (carve_ok (py_take inner' size) size) as (vs & -> & Hc & L3 & Iv).
  - rewrite take_pos by lia. apply firstn_nodup, N1.
  - unfold lenZ in Lt. lia.
  - apply (no_three_incl inner'); [|exact G']. intros p Hp. apply py_take_in in Hp. exact Hp.
  - apply (enough_mono (length inner)); [|exact Fu]. unfold lenZ in *. lia.
  - cbn [rbind]. change MIN_CONTOUR_SIZE with 3. replace (3 <=? lenZ vs) with true by (symmetry; apply Z.leb_le; unfold lenZ; lia).
    assert (Ir : incl (reverse_vertices vs) (py_take inner' size)) by (intros p Hp; apply (proj1 (reverse_in _ _)) in Hp; apply Iv, Hp).
    assert (Cw' : Forall clockwise (hs ++ [reverse_vertices vs])) by (apply Forall_app; split; [exact Cw|constructor; [apply turned, Hc|constructor]]).
    assert (Pa' : ForallOrdPairs parted (hs ++ [reverse_vertices vs])).
    { apply ordpairs_snoc; [exact Pa|]. rewrite Forall_forall in *. intros h Hh. apply (parted_incl h inner); [apply Pi, Hh|apply incl_refl|].
      intros p Hp. apply I', (py_take_in _ _ _ (Ir p Hp)). }
    rewrite (holes_check_ok _ Cw' Pa'). cbn [assert_ rbind].
    destruct (touch_some k (reverse_vertices vs)) as (b & ->).
    { intros E. apply (f_equal (@length _)) in E. rewrite reverse_length in E. cbn in E. lia. }
    cbn [rbind]. pose proof (b2z_range b) as Hb. rewrite Lt.
    destruct (IH choices (Some k) (py_drop inner' (size - b2z b)) (hs ++ [reverse_vertices vs]) (fold_left (fun acc p => add_point p acc) (py_take inner' size) bp))
      as (new & bp' & -> & F & Ln).
    + intros s Is. apply Hs. right. exact Is.
    + rewrite py_drop_length by lia. unfold lenZ in *. rewrite El. lia.
    + rewrite drop_pos by lia. apply skipn_nodup, N1.
    + apply (no_three_incl inner'); [|exact G']. intros p Hp. apply py_drop_in in Hp. exact Hp.
    + apply (enough_mono (length inner)); [|exact Fu]. rewrite drop_pos by lia. rewrite skipn_length. lia.
    + intros k' E. injection E as <-. unfold py_drop. apply skipn_sorted, S1.
    + exact Cw'.
    + exact Pa'.
    + apply Forall_app. split.
      * rewrite Forall_forall in *. intros h Hh. apply (parted_incl h inner); [apply Pi, Hh|apply incl_refl|].
        intros p Hp. apply I', (py_drop_in _ _ _ Hp).
      * constructor; [|constructor]. eapply parted_incl; [apply (cut_parted k inner' size (b2z b) S1 ltac:(lia) Hb)|exact Ir|apply incl_refl].
    + exists (reverse_vertices vs :: new), bp'. rewrite <- app_assoc. split; [reflexivity|]. split; [constructor; [apply turned, Hc|exact F]|].
      cbn [length]. rewrite Ln. reflexivity.
Qed.
End L.
