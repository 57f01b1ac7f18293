(** The borders and the holes of generated polygons, alone, in multipolygons and in mixes. *)
From Verif Require Import Base Prog Geometry Ctx Utils Contracts Factories Strategies Planar Spec MixSpec WindSpec ProgProofs PlanarProofs
  ListProofs GeomProofs QcTac GridProofs EdgeProofs SegmentProofs SeparationProofs MultiProofs CompressProofs SequenceProofs MemberProofs SliceProofs
  MixProofs TriProofs CycEdge DelWind DelGreen DelPoly WindProofs.
Import List ListNotations.
Open Scope nat_scope.

(** ** The holes. *)
Definition clean_hole (vs : contour) : Prop :=
  (forall a b, contour_edge vs a b -> a <> b) /\ later_strict vs /\ pairwise_apart (contour_segments vs).

Lemma some_cross_none l : some_segments_cross_or_overlap l = false -> pairwise_apart l.
Proof.
  intros H. apply pairwise_apart_lt. revert H. induction l as [|s l IH]; intros H i j x y Hi Hj L M; [destruct i; discriminate|].
  cbn in H. apply orb_false_iff in H. destruct H as (H1 & H2).
  destruct j as [|j]; [lia|]. cbn in Hj. destruct i as [|i].
  - injection Hi as <-. apply not_true_iff_false in H1. apply H1. apply existsb_exists. exists y. split; [eapply nth_error_In, Hj|].
    apply cross_or_overlap_spec, M.
  - exact (IH H2 i j x y Hi Hj ltac:(lia) M).
Qed.
Lemma some_cross_part l : forall m, some_segments_cross_or_overlap (l ++ m) = false -> some_segments_cross_or_overlap m = false.
Proof. induction l as [|s l IH]; intros m H; [exact H|]. cbn in H. apply orb_false_iff in H. apply IH, H. Qed.
Lemma nth_error_rev {A} (l : list A) i : i < length l -> nth_error (rev l) i = nth_error l (length l - S i).
Proof.
  intros H. destruct l as [|d l]; [cbn in H; lia|]. set (m := d :: l) in *.
  rewrite (nth_error_nth' (rev m) d) by (rewrite rev_length; exact H). rewrite rev_nth by exact H.
  symmetry. apply nth_error_nth'. lia.
Qed.
Lemma reverse_nth v l i : i <= length l ->
  nth_error (reverse_vertices (v :: l)) i = nth_error (v :: l) (match i with 0 => 0 | S _ => S (length l) - i end).
Proof.
  intros H. change (reverse_vertices (v :: l)) with (v :: rev l). destruct i as [|i]; [reflexivity|]. cbn [nth_error].
  rewrite nth_error_rev by lia. replace (S (length l) - S i) with (S (length l - S i)) by lia. reflexivity.
Qed.
Lemma reverse_edge vs a b : contour_edge (reverse_vertices vs) a b -> contour_edge vs b a.
Proof.
  intros (i & H1 & H2). rewrite reverse_length in H2. destruct vs as [|v l]; [destruct i; discriminate|].
  assert (Li : i < length (v :: l)) by (rewrite <- reverse_length; apply nth_error_Some; congruence).
  cbn [length] in Li, H2. unfold contour_edge. cbn [length]. destruct (Nat.eq_dec i (length l)) as [e|ne].
  - exists 0. rewrite e, Nat.mod_same in H2 by lia. rewrite reverse_nth in H1, H2 by lia. split; [exact H2|]. rewrite <- H1, e.
    destruct (length l) as [|n] eqn:En; [reflexivity|]. rewrite Nat.mod_small by lia. f_equal. lia.
  - rewrite Nat.mod_small in H2 by lia. rewrite reverse_nth in H1, H2 by lia. exists (S (length l) - S i). split; [exact H2|].
    rewrite <- H1. f_equal. destruct i as [|i].
    + replace (S (S (length l) - 1)) with (S (length l)) by lia. apply Nat.mod_same. lia.
    + rewrite Nat.mod_small by lia. lia.
Qed.
Lemma reverse_strict vs : 3 <= length vs -> inner_strict vs -> later_strict (reverse_vertices vs).
Proof.
  intros L3 H i a b c L Ha Hb Hc C. rewrite reverse_length in Hc. destruct vs as [|v l]; [cbn in L3; lia|].
  assert (Li : S i < length (v :: l)) by (rewrite <- reverse_length; apply nth_error_Some; congruence). cbn [length] in Li, Hc, L3.
  rewrite reverse_nth in Ha, Hb by lia. destruct i as [|i]; [lia|].
  assert (Hc' : nth_error (v :: l) (S (length l) - S (S (S i))) = Some c).
  { destruct (Nat.eq_dec (S (S i)) (length l)) as [e|ne].
    - rewrite e, Nat.mod_same in Hc by lia. rewrite e. rewrite Nat.sub_diag. exact Hc.
    - rewrite Nat.mod_small in Hc by lia. rewrite reverse_nth in Hc by lia. exact Hc. }
  apply (H (S (length l) - S (S (S i))) c b a); [exact Hc'| | |].
  - rewrite <- Hb. f_equal. lia.
  - rewrite <- Ha. f_equal. lia.
  - revert C. unfold collinear. intros C. transitivity (- cross a b c)%Qc; [unfold cross; ring|rewrite C; reflexivity].
Qed.
Lemma clean_reverse ctx points ws hs : carved ctx points ws -> contours_do_not_cross_or_overlap (hs ++ [reverse_vertices ws]) = true ->
  clean_hole (reverse_vertices ws).
Proof.
  intros C H. destruct (carved_inner _ _ _ C) as (E & I). destruct C as (_ & _ & _ & _ & _ & L3). split; [|split].
  - intros a b h. apply reverse_edge in h. intros ->. exact (E b b h eq_refl).
  - apply reverse_strict; [exact L3|exact I].
  - unfold contours_do_not_cross_or_overlap, are_segments_non_crossing_non_overlapping in H. apply negb_true_iff in H.
    rewrite flat_map_app in H. apply some_cross_part in H. cbn [flat_map] in H. rewrite app_nil_r in H. apply some_cross_none, H.
Qed.
Lemma holes_clean ctx sizes : forall choices prior inner hs bp hs' bp',
  hole_loop ctx sizes choices prior inner hs bp = Ok (hs', bp') ->
  (forall vs, In vs hs -> clean_hole vs) -> forall vs, In vs hs' -> clean_hole vs.
Proof.
  induction sizes as [|size sizes IH]; intros choices prior inner hs bp hs' bp' H Hh.
  { cbn in H. injection H as <- _. exact Hh. }
  destruct choices as [|k choices]; cbn [hole_loop] in H.
  { injection H as <- _. exact Hh. }
  set (points' := if (_ : bool) then inner else sort_points k inner) in *. clearbody points'.
  apply rbind_ok in H. destruct H as (ws & Hw & H).
  destruct (MIN_CONTOUR_SIZE <=? lenZ ws)%Z eqn:E; [|apply (IH _ _ _ _ _ _ _ H Hh)].
  apply rbind_ok in H. destruct H as (u & Hu & H). apply rbind_ok in H. destruct H as (touch & _ & H). apply (IH _ _ _ _ _ _ _ H).
  intros vs Hv. apply in_app_or in Hv. destruct Hv as [Hv|[<- |[]]]; [apply Hh, Hv|].
  apply (clean_reverse ctx (py_take points' size) ws hs).
  - exists (py_take points' size), size. split; [exact Hw|]. split; [apply incl_refl|]. split; [tauto|].
    apply Z.leb_le in E. change MIN_CONTOUR_SIZE with 3%Z in E. unfold lenZ in E. lia.
  - unfold assert_ in Hu. destruct (contours_do_not_cross_or_overlap _); [reflexivity|discriminate].
Qed.
Lemma to_polygon_holes ctx points size sizes choices p : to_polygon ctx points size sizes choices = Ok p ->
  forall vs, In vs (holes p) -> clean_hole vs.
Proof.
  intros H. unfold to_polygon in H. apply rbind_ok in H. destruct H as ((t & h) & _ & H). apply rbind_ok in H. destruct H as (es & _ & H).
  apply rbind_ok in H. destruct H as ((hs & bp) & Hh & H). apply rbind_ok in H. destruct H as (cands & _ & H).
  apply rbind_ok in H. destruct H as (st & _ & H). apply rbind_ok in H. destruct H as (bv & _ & H). apply rbind_ok in H. destruct H as (u & _ & H).
  injection H as <-. cbn [holes]. apply (holes_clean _ _ _ _ _ _ _ _ _ Hh). intros vs [].
Qed.

(** ** The border. *)
Lemma signed_doubled vs : signed_area vs = doubled_area vs.
Proof. destruct vs as [|v l]; [reflexivity|]. rewrite area_ces. reflexivity. Qed.
Definition contracts (ctx : context) : Prop :=
  (forall n, (2 <= n)%nat -> is_change n (ctx_coins ctx n)) /\ (forall l s, l <> [] -> is_nearest l s (ctx_nearest ctx l s)).
Lemma strategy_holes ctx xs ys mn mx hmn hmx smn smx p :
  generates (to_polygon_strategy ctx xs ys mn mx hmn hmx smn smx) p -> forall vs, In vs (holes p) -> clean_hole vs.
Proof.
  intros H. unfold to_polygon_strategy in H. apply gen_pfilter in H. destruct H as (H & _).
  apply gen_bind in H. destruct H as (points & _ & H). apply gen_bind in H. destruct H as (size & _ & H).
  apply gen_bind in H. destruct H as (sizes & _ & H). apply gen_bind in H. destruct H as (choices & _ & H).
  apply gen_lift in H. exact (to_polygon_holes _ _ _ _ _ _ H).
Qed.
Lemma strategy_border ctx xs ys mn mx hmn hmx smn smx p : contracts ctx -> (1 <= smn)%Z ->
  generates (to_polygon_strategy ctx xs ys mn mx hmn hmx smn smx) p -> well_bordered p.
Proof.
  intros (Coins & Near) Hc H. unfold to_polygon_strategy in H. apply gen_pfilter in H. destruct H as (H & _).
  apply gen_bind in H. destruct H as (points & Hp & H). apply gen_pfilter in Hp. destruct Hp as (Hp & _). apply grid_sound in Hp.
  destruct Hp as [_ _ _ _ N _ _ _].
  apply gen_bind in H. destruct H as (size & _ & H).
  apply gen_bind in H. destruct H as (sizes & Hs & H). apply gen_bind in H. destruct H as (choices & _ & H).
  apply gen_lift in H. apply (to_polygon_border ctx points N (Coins _) Near) in H.
  - destruct H as (J & _ & St & A & _ & D & Wi). split; [exact J|]. split; [exact St|]. split; [rewrite signed_doubled; exact A|].
    intros vs q Hv Hq. apply (within_all (border p) vs q); [intros x Hx; apply (D vs x Hv Hx)|intros x Hx; apply (Wi vs x Hv Hx)|exact Hq].
  - intros s Hin. pose proof (to_hole_sizes_ge _ _ _ _ _ Hs s Hin). lia.
Qed.

(** ** Where polygons come from. *)
Definition polygon_source (ctx : context) (p : polygon) : Prop :=
  exists xs ys mn mx hmn hmx smn smx, (1 <= smn)%Z /\ generates (to_polygon_strategy ctx xs ys mn mx hmn hmx smn smx) p.
Lemma slice_source ctx a xs ys mn mx hmn hmx smn smx l p : (1 <= smn)%Z ->
  generates (slice_polygon ctx a xs ys mn mx hmn hmx smn smx l) p -> polygon_source ctx p.
Proof. intros L H. unfold slice_polygon in H. destruct (sliced a l xs ys) as (sx & sy). do 8 eexists. split; [exact L|exact H]. Qed.
Lemma multipolygon_loop_source ctx a xs ys mn mx hmn hmx smn smx mpc left : (1 <= smn)%Z -> forall coordinates start ps,
  generates (multipolygon_loop ctx a xs ys mn mx hmn hmx smn smx mpc left coordinates start) ps ->
  forall p, In p ps -> polygon_source ctx p.
Proof.
  intros L. induction left as [|left IH]; intros l start ps H p Hp.
  - cbn [multipolygon_loop] in H. apply gen_bind in H. destruct H as (r & Hr & H). apply gen_ret in H. subst ps.
    destruct Hp as [<- |[]]. eapply slice_source; eassumption.
  - destruct left as [|left].
    { cbn [multipolygon_loop] in H. apply gen_bind in H. destruct H as (r & Hr & H). apply gen_ret in H. subst ps.
      destruct Hp as [<- |[]]. eapply slice_source; eassumption. }
    remember (S left) as left1 eqn:El. unfold multipolygon_loop in H; fold multipolygon_loop in H. subst left1.
    apply gen_bind in H. destruct H as (count & Hc & H). apply gen_bind in H. destruct H as (prior & _ & H).
    apply gen_bind in H. destruct H as (r & Hr & H). apply gen_bind in H. destruct H as (blocked & Hb & H).
    apply gen_bind in H. destruct H as (rest & Hrest & H). apply gen_ret in H. subst ps.
    destruct Hp as [<- |Hp]; [eapply slice_source; eassumption|]. exact (IH _ _ _ Hrest p Hp).
Qed.
Lemma multipolygon_source ctx xs ys mn mx bmn bmx hmn hmx smn smx ps : (1 <= smn)%Z ->
  generates (to_multipolygon_strategy ctx xs ys mn mx bmn bmx hmn hmx smn smx) ps ->
  forall p, In p ps -> hmn <> 0%Z \/ holes p <> [] -> polygon_source ctx p.
Proof.
  intros L H p Hp Hne. unfold to_multipolygon_strategy in H. cbv zeta in H.
  apply gen_bind in H. destruct H as (mpc & _ & H).
  assert (Along : forall a c mt mxt, generates (let! l := unique_scalars c mt mxt in
     coordinates_to_polygons ctx a xs (or_else ys xs) bmn bmx hmn hmx smn smx mpc mn mx l) ps -> polygon_source ctx p).
  { clear H. intros a c mt mxt H. apply gen_bind in H. destruct H as (l & _ & H). unfold coordinates_to_polygons in H.
    apply gen_bind in H. destruct H as (size & _ & H). exact (multipolygon_loop_source _ _ _ _ _ _ _ _ _ _ _ _ L _ _ _ H p Hp). }
  assert (Both : forall s1 s2, (generates s1 ps -> polygon_source ctx p) -> (generates s2 ps -> polygon_source ctx p) ->
    generates (alt s1 s2) ps -> polygon_source ctx p).
  { intros s1 s2 K1 K2 K. apply gen_alt in K. destruct K as [K|K]; auto. }
  destruct (Z.eqb_spec hmn 0) as [E|E]; [|eapply Both; [| |exact H]; apply Along].
  apply gen_alt in H. destruct H as [H|H]; [|eapply Both; [| |exact H]; apply Along].
  apply gen_pmap in H. destruct H as (mc & H & ->). apply in_map_iff in Hp. destruct Hp as (vs & <- & Hp).
  destruct Hne as [Hne|Hne]; [contradiction|]. exfalso. apply Hne. reflexivity.
Qed.
Lemma mix_loop_source ctx xs ys mn mx hmn hmx smn smx a drawers : (1 <= smn)%Z -> forall l P S Q P' S' Q',
  generates (mix_loop ctx xs ys mn mx hmn hmx smn smx a drawers l P S Q) (P', S', Q') ->
  forall p, In p Q' -> In p Q \/ polygon_source ctx p.
Proof.
  intros L. induction drawers as [|(d, count) drawers IH]; intros l P S Q P' S' Q' H p Hp.
  { cbn [mix_loop] in H. apply gen_ret in H. injection H as -> -> ->. auto. }
  cbn [mix_loop] in H. apply gen_bind in H. destruct H as (((P1 & S1) & Q1) & Hdraw & H).
  apply gen_bind in H. destruct H as (touch & _ & H). destruct (IH _ _ _ _ _ _ _ H p Hp) as [K|K]; [|auto].
  destruct d; apply gen_bind in Hdraw; destruct Hdraw as (r & Hr & Hdraw); apply gen_ret in Hdraw; injection Hdraw as -> -> ->; auto.
  apply in_app_or in K. destruct K as [K|[<- |[]]]; [auto|]. right. unfold draw_polygon in Hr. apply gen_bind in Hr. destruct Hr as (n & _ & Hr).
  change (generates (slice_polygon ctx a xs ys mn mx hmn hmx smn smx (py_take l n)) r) in Hr. eapply slice_source; eassumption.
Qed.
Lemma mix_source ctx xs ys pmn pmx gmn gmx qmn qmx mn mx hmn hmx smn smx m : (1 <= smn)%Z ->
  generates (to_mix_strategy ctx xs ys pmn pmx gmn gmx qmn qmx mn mx hmn hmx smn smx) m ->
  forall p, In p (elements (shaped m)) -> polygon_source ctx p.
Proof.
  intros L H p Hp. unfold to_mix_strategy in H. cbv zeta in H. apply gen_bind in H. destruct H as (mpc & _ & H).
  assert (Along : forall a c mt mxt, generates (let! l := unique_scalars c mt mxt in
     coordinates_to_mix ctx xs (or_else ys xs) pmn pmx gmn gmx qmn qmx mn mx hmn hmx smn smx mpc a l) m -> polygon_source ctx p).
  { clear H. intros a c mt mxt H. apply gen_bind in H. destruct H as (l & _ & H). unfold coordinates_to_mix in H.
    apply gen_bind in H. destruct H as (((pc & sc) & qc) & _ & H). apply gen_bind in H. destruct H as (drawers & _ & H).
    apply gen_bind in H. destruct H as (((P & S) & Q) & H & Hm). apply gen_ret in Hm. subst m. cbn [shaped] in Hp. rewrite elements_unpack in Hp.
    destruct (mix_loop_source _ _ _ _ _ _ _ _ _ _ _ L _ _ _ _ _ _ _ H p Hp) as [[]|K]. exact K. }
  apply gen_alt in H. destruct H as [H|H]; eapply Along, H.
Qed.
Lemma source_border ctx p : contracts ctx -> polygon_source ctx p -> well_bordered p.
Proof. intros C (xs & ys & mn & mx & hmn & hmx & smn & smx & L & H). eapply strategy_border; eassumption. Qed.
Lemma source_holes ctx p : polygon_source ctx p -> forall vs, In vs (holes p) -> clean_hole vs.
Proof. intros (xs & ys & mn & mx & hmn & hmx & smn & smx & L & H). eapply strategy_holes; eassumption. Qed.

(** ** The public API. *)
Lemma polygons_source ctx xs ys mn mx hmn hmx smn smx w s p :
  polygons ctx xs ys mn mx hmn hmx smn smx = Ok (w, s) -> generates s p -> polygon_source ctx p.
Proof.
  intros H Hg. unfold polygons in H. validate; try discriminate. injection H as _ <-. do 8 eexists. split; [|exact Hg].
  change MIN_CONTOUR_SIZE with 3%Z. lia.
Qed.
Lemma multipolygons_source ctx xs ys mn mx bmn bmx hmn hmx smn smx w s ps :
  multipolygons ctx xs ys mn mx bmn bmx hmn hmx smn smx = Ok (w, s) -> generates s ps ->
  forall p, In p ps -> hmn <> 0%Z \/ holes p <> [] -> polygon_source ctx p.
Proof.
  intros H Hg. unfold multipolygons in H. validate; try discriminate. injection H as _ <-. revert Hg. apply multipolygon_source.
  change MIN_CONTOUR_SIZE with 3%Z. lia.
Qed.
Lemma mixes_source ctx xs ys pmn pmx gmn gmx qmn qmx mn mx hmn hmx smn smx w s m :
  mixes ctx xs ys pmn pmx gmn gmx qmn qmx mn mx hmn hmx smn smx = Ok (w, s) -> generates s m ->
  forall p, In p (elements (shaped m)) -> polygon_source ctx p.
Proof.
  intros H Hg p Hp. unfold mixes in H. validate; try discriminate.
  match type of H with (let* _ := if ?c then _ else _ in _) = _ => destruct c eqn:Ec; [discriminate|] end. cbn [rbind] in H.
  change MIN_CONTOUR_SIZE with 3%Z in H. injection H as _ <-.
  assert (exists p' g' q', generates (to_mix_strategy ctx xs ys p' pmx g' gmx q' qmx (Z.max mn 3) mx (Z.max hmn 0) hmx (Z.max smn 3) smx) m) as (p' & g' & q' & K).
  { destruct (may_have pmx) eqn:Ep, (may_have gmx) eqn:Eg, (may_have qmx) eqn:Eq;
      try (vm_compute in Ec; discriminate); repeat (apply gen_alt in Hg; destruct Hg as [Hg|Hg]);
      do 3 eexists; exact Hg. }
  eapply mix_source; [|exact K|exact Hp]. lia.
Qed.

Lemma polygons_bordered ctx xs ys mn mx hmn hmx smn smx w s p : contracts ctx ->
  polygons ctx xs ys mn mx hmn hmx smn smx = Ok (w, s) -> generates s p -> well_bordered p.
Proof. intros C H Hg. apply (source_border ctx); [exact C|]. eapply polygons_source; eassumption. Qed.
Lemma multipolygons_bordered ctx xs ys mn mx bmn bmx hmn hmx smn smx w s ps p : contracts ctx ->
  multipolygons ctx xs ys mn mx bmn bmx hmn hmx smn smx = Ok (w, s) -> generates s ps -> In p ps ->
  hmn <> 0%Z \/ holes p <> [] -> well_bordered p.
Proof. intros C H Hg Hp Hn. apply (source_border ctx); [exact C|]. eapply multipolygons_source; eassumption. Qed.
Lemma mixes_bordered ctx xs ys pmn pmx gmn gmx qmn qmx mn mx hmn hmx smn smx w s m p : contracts ctx ->
  mixes ctx xs ys pmn pmx gmn gmx qmn qmx mn mx hmn hmx smn smx = Ok (w, s) -> generates s m -> In p (elements (shaped m)) ->
  well_bordered p.
Proof. intros C H Hg Hp. apply (source_border ctx); [exact C|]. eapply mixes_source; eassumption. Qed.
Lemma polygons_clean ctx xs ys mn mx hmn hmx smn smx w s p :
  polygons ctx xs ys mn mx hmn hmx smn smx = Ok (w, s) -> generates s p -> forall vs, In vs (holes p) -> clean_hole vs.
Proof. intros H Hg. apply (source_holes ctx). eapply polygons_source; eassumption. Qed.
Lemma multipolygons_clean ctx xs ys mn mx bmn bmx hmn hmx smn smx w s ps p :
  multipolygons ctx xs ys mn mx bmn bmx hmn hmx smn smx = Ok (w, s) -> generates s ps -> In p ps ->
  forall vs, In vs (holes p) -> clean_hole vs.
Proof.
  intros H Hg Hp vs Hv. apply (source_holes ctx p); [|exact Hv]. eapply multipolygons_source; [exact H|exact Hg|exact Hp|].
  right. intros E. rewrite E in Hv. destruct Hv.
Qed.
Lemma mixes_clean ctx xs ys pmn pmx gmn gmx qmn qmx mn mx hmn hmx smn smx w s m p :
  mixes ctx xs ys pmn pmx gmn gmx qmn qmx mn mx hmn hmx smn smx = Ok (w, s) -> generates s m -> In p (elements (shaped m)) ->
  forall vs, In vs (holes p) -> clean_hole vs.
Proof. intros H Hg Hp. apply (source_holes ctx). eapply mixes_source; eassumption. Qed.
(** A hole with three vertices has no straight angle at all. *)
Lemma three_strict vs : length vs = 3 -> later_strict vs -> strict vs.
Proof.
  intros L H. destruct vs as [|u [|v [|w [|? ?]]]]; try discriminate L. 
  assert (K : ~ collinear v w u) by (apply (H 1); [lia|reflexivity..]).
  intros a b c (i & Ha & Hb & Hc) C. apply K. unfold collinear in *.
  assert (a = u /\ b = v /\ c = w \/ a = v /\ b = w /\ c = u \/ a = w /\ b = u /\ c = v) as [(-> & -> & ->)|[(-> & -> & ->)|(-> & -> & ->)]].
  { destruct i as [|[|[|i]]]; cbn in Ha, Hb, Hc; [| | |destruct i; discriminate]; injection Ha; injection Hb; injection Hc; auto. }
  all: rewrite <- C; unfold cross; ring.
Qed.

(** ** The statements of the theorems. *)
Section Api.
Context (ctx : context) (C : contracts ctx).
Lemma borders_strict :
  (forall xs ys mn mx hmn hmx smn smx w s p,
     polygons ctx xs ys mn mx hmn hmx smn smx = Ok (w, s) -> generates s p -> strict (border p)) /\
  (forall xs ys mn mx bmn bmx hmn hmx smn smx w s ps p,
     multipolygons ctx xs ys mn mx bmn bmx hmn hmx smn smx = Ok (w, s) -> generates s ps -> In p ps ->
     hmn <> 0%Z \/ holes p <> [] -> strict (border p)) /\
  (forall xs ys pmn pmx gmn gmx qmn qmx mn mx hmn hmx smn smx w s m p,
     mixes ctx xs ys pmn pmx gmn gmx qmn qmx mn mx hmn hmx smn smx = Ok (w, s) -> generates s m ->
     In p (elements (shaped m)) -> strict (border p)).
Proof.
  split; [|split].
  - intros xs ys mn mx hmn hmx smn smx w s p H Hg. eapply polygons_bordered; eassumption.
  - intros xs ys mn mx bmn bmx hmn hmx smn smx w s ps p H Hg Hp Hn. eapply multipolygons_bordered; eassumption.
  - intros xs ys pmn pmx gmn gmx qmn qmx mn mx hmn hmx smn smx w s m p H Hg Hp. eapply mixes_bordered; eassumption.
Qed.
Lemma borders_simple :
  (forall xs ys mn mx hmn hmx smn smx w s p,
     polygons ctx xs ys mn mx hmn hmx smn smx = Ok (w, s) -> generates s p ->
     jordan (border p) /\ (0 < signed_area (border p))%Qc) /\
  (forall xs ys mn mx bmn bmx hmn hmx smn smx w s ps p,
     multipolygons ctx xs ys mn mx bmn bmx hmn hmx smn smx = Ok (w, s) -> generates s ps -> In p ps ->
     hmn <> 0%Z \/ holes p <> [] -> jordan (border p) /\ (0 < signed_area (border p))%Qc) /\
  (forall xs ys pmn pmx gmn gmx qmn qmx mn mx hmn hmx smn smx w s m p,
     mixes ctx xs ys pmn pmx gmn gmx qmn qmx mn mx hmn hmx smn smx = Ok (w, s) -> generates s m ->
     In p (elements (shaped m)) -> jordan (border p) /\ (0 < signed_area (border p))%Qc).
Proof.
  split; [|split].
  - intros xs ys mn mx hmn hmx smn smx w s p H Hg.
    destruct (polygons_bordered _ _ _ _ _ _ _ _ _ _ _ _ C H Hg) as (J & _ & A & _). auto.
  - intros xs ys mn mx bmn bmx hmn hmx smn smx w s ps p H Hg Hp Hn.
    destruct (multipolygons_bordered _ _ _ _ _ _ _ _ _ _ _ _ _ _ _ C H Hg Hp Hn) as (J & _ & A & _). auto.
  - intros xs ys pmn pmx gmn gmx qmn qmx mn mx hmn hmx smn smx w s m p H Hg Hp.
    destruct (mixes_bordered _ _ _ _ _ _ _ _ _ _ _ _ _ _ _ _ _ _ _ C H Hg Hp) as (J & _ & A & _). auto.
Qed.
Lemma holes_within :
  (forall xs ys mn mx hmn hmx smn smx w s p,
     polygons ctx xs ys mn mx hmn hmx smn smx = Ok (w, s) -> generates s p ->
     forall vs q, In vs (holes p) -> on_contour q vs -> within q (border p)) /\
  (forall xs ys mn mx bmn bmx hmn hmx smn smx w s ps p,
     multipolygons ctx xs ys mn mx bmn bmx hmn hmx smn smx = Ok (w, s) -> generates s ps -> In p ps ->
     forall vs q, In vs (holes p) -> on_contour q vs -> within q (border p)) /\
  (forall xs ys pmn pmx gmn gmx qmn qmx mn mx hmn hmx smn smx w s m p,
     mixes ctx xs ys pmn pmx gmn gmx qmn qmx mn mx hmn hmx smn smx = Ok (w, s) -> generates s m ->
     In p (elements (shaped m)) ->
     forall vs q, In vs (holes p) -> on_contour q vs -> within q (border p)).
Proof.
  split; [|split].
  - intros xs ys mn mx hmn hmx smn smx w s p H Hg. eapply polygons_bordered; eassumption.
  - intros xs ys mn mx bmn bmx hmn hmx smn smx w s ps p H Hg Hp vs q Hv Hq.
    assert (Hn : holes p <> []) by (intros E; rewrite E in Hv; destruct Hv).
    destruct (multipolygons_bordered _ _ _ _ _ _ _ _ _ _ _ _ _ _ _ C H Hg Hp (or_intror Hn)) as (_ & _ & _ & K). exact (K vs q Hv Hq).
  - intros xs ys pmn pmx gmn gmx qmn qmx mn mx hmn hmx smn smx w s m p H Hg Hp. eapply mixes_bordered; eassumption.
Qed.
Lemma holes_off_border :
  (forall xs ys mn mx hmn hmx smn smx w s p,
     polygons ctx xs ys mn mx hmn hmx smn smx = Ok (w, s) -> generates s p ->
     forall vs q, In vs (holes p) -> on_contour q vs -> ~ on_contour q (border p)) /\
  (forall xs ys mn mx bmn bmx hmn hmx smn smx w s ps p,
     multipolygons ctx xs ys mn mx bmn bmx hmn hmx smn smx = Ok (w, s) -> generates s ps -> In p ps ->
     forall vs q, In vs (holes p) -> on_contour q vs -> ~ on_contour q (border p)) /\
  (forall xs ys pmn pmx gmn gmx qmn qmx mn mx hmn hmx smn smx w s m p,
     mixes ctx xs ys pmn pmx gmn gmx qmn qmx mn mx hmn hmx smn smx = Ok (w, s) -> generates s m ->
     In p (elements (shaped m)) ->
     forall vs q, In vs (holes p) -> on_contour q vs -> ~ on_contour q (border p)).
Proof.
  destruct holes_within as (H1 & H2 & H3). split; [|split].
  - intros xs ys mn mx hmn hmx smn smx w s p H Hg vs q Hv Hq. eapply H1; eassumption.
  - intros xs ys mn mx bmn bmx hmn hmx smn smx w s ps p H Hg Hp vs q Hv Hq. eapply H2; eassumption.
  - intros xs ys pmn pmx gmn gmx qmn qmx mn mx hmn hmx smn smx w s m p H Hg Hp vs q Hv Hq. eapply H3; eassumption.
Qed.
End Api.
Lemma clean_angles vs : clean_hole vs -> (forall a b, contour_edge vs a b -> a <> b) /\ later_strict vs /\ (lenZ vs = 3%Z -> strict vs).
Proof. intros (H1 & H2 & _). split; [exact H1|]. split; [exact H2|]. intros L. apply three_strict; [unfold lenZ in L; lia|exact H2]. Qed.
