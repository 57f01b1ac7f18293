(** The public API with inexact arithmetic.  The proofs are those of ContourProofs.v,
    GeometryApiProofs.v and MixApiProofs.v. *)
From Verif Require Import Base Prog Geometry Ctx Utils Contracts Factories Strategies Planar Spec MixSpec ProgProofs
  PlanarProofs QcTac GeomProofs EdgeProofs ConvexProofs SegmentProofs SeparationProofs MultiProofs ContourProofs SliceProofs SequenceProofs
  MultipolygonProofs MixProofs GeometryApiProofs MixApiProofs
  RoughArith RoughFactories RoughStrategies RoughPlanar RoughContours RoughMix.

Section Rough.
Context {ar : arith}.

Lemma convex_contours_spec ctx xs ys mn mx w s vs : (forall l, incl (ctx_hull ctx l) l) ->
  convex_contours ctx xs ys mn mx = Ok (w, s) -> generates s vs ->
  size_ok (lenZ vs) (Z.max mn 3) mx
  /\ (forall p, In p vs -> in_drawable_range xs (px p) /\ in_drawable_range (ordinates xs ys) (py p)).
Proof.
  intros Hh H. unfold convex_contours in H. validate; try discriminate. injection H as _ <-.
  apply convex_strategy_spec; [exact Hh|unfold MIN_CONTOUR_SIZE, CONCAVE, CONVEX; lia|apply clamped_range; assumption].
Qed.
Lemma contours_spec ctx xs ys mn mx w s vs : (forall l, incl (ctx_hull ctx l) l) ->
  contours ctx xs ys mn mx = Ok (w, s) -> generates s vs ->
  size_ok (lenZ vs) (Z.max mn 3) mx
  /\ (forall p, In p vs -> in_drawable_range xs (px p) /\ in_drawable_range (ordinates xs ys) (py p)).
Proof.
  intros Hh H. unfold contours in H. validate; try discriminate. injection H as _ <-.
  apply vertex_sequence_spec; [exact Hh|unfold MIN_CONTOUR_SIZE, CONCAVE, CONVEX; lia|apply clamped_range; assumption].
Qed.
Lemma concave_contours_spec ctx xs ys mn mx w s vs :
  concave_contours ctx xs ys mn mx = Ok (w, s) -> generates s vs ->
  size_ok (lenZ vs) (Z.max mn 4) mx /\ (forall p, In p vs -> drawable_point xs ys p).
Proof.
  intros H. unfold concave_contours in H. validate; try discriminate. injection H as _ <-.
  apply concave_strategy_spec.
Qed.
Lemma star_contours_spec ctx xs ys mn mx w s vs :
  star_contours ctx xs ys mn mx = Ok (w, s) -> generates s vs ->
  size_ok (lenZ vs) (Z.max mn 3) mx /\ NoDup vs /\ (forall p, In p vs -> drawable_point xs ys p).
Proof.
  intros H. unfold star_contours in H. validate; try discriminate. injection H as _ <-.
  apply star_strategy_spec.
Qed.
Lemma triangular_contours_spec xs ys w s vs :
  triangular_contours xs ys = Ok (w, s) -> generates s vs ->
  lenZ vs = 3%Z /\ (forall p, In p vs -> drawable_point xs ys p).
Proof.
  intros H Hg. injection H as _ <-. apply gen_triangle_points in Hg. destruct Hg as (Hl & Hd). split; [|exact Hd].
  unfold lenZ. rewrite Hl. reflexivity.
Qed.
Lemma multisegments_spec ctx xs ys mn mx w s l : (forall l, incl (ctx_hull ctx l) l) ->
  multisegments ctx xs ys mn mx = Ok (w, s) -> generates s l ->
  size_ok (lenZ l) (Z.max mn 2) mx
  /\ (forall t, In t l ->
        in_drawable_range xs (px (seg_start t)) /\ in_drawable_range xs (px (seg_end t))
        /\ in_drawable_range (ordinates xs ys) (py (seg_start t)) /\ in_drawable_range (ordinates xs ys) (py (seg_end t))).
Proof.
  intros Hh H. unfold multisegments in H. validate; try discriminate. injection H as _ <-. intros Hg.
  change MIN_MULTISEGMENT_SIZE with 2%Z in *.
  apply segment_sequence_spec in Hg; [exact Hg|exact Hh|lia|apply clamped_range; assumption].
Qed.
Lemma multicontours_spec ctx xs ys mn mx cmn cmx w s mc :
  multicontours ctx xs ys mn mx cmn cmx = Ok (w, s) -> generates s mc ->
  size_ok (lenZ mc) (Z.max mn 2) mx /\ (forall vs : contour, In vs mc -> size_ok (lenZ vs) (Z.max cmn 3) cmx) /\
  (forall vs p, In vs mc -> In p vs -> drawable_point xs ys p) /\ ForallOrdPairs parted mc.
Proof.
  intros H. unfold multicontours in H. validate; try discriminate. injection H as _ <-.
  apply multicontour_strategy_spec. change MIN_CONTOUR_SIZE with 3%Z. lia.
Qed.
Lemma multicontours_sizes ctx xs ys mn mx cmn cmx w s mc :
  multicontours ctx xs ys mn mx cmn cmx = Ok (w, s) -> generates s mc ->
  size_ok (lenZ mc) (Z.max mn 2) mx /\ (forall vs : contour, In vs mc -> size_ok (lenZ vs) (Z.max cmn 3) cmx) /\
  forall vs p, In vs mc -> In p vs -> drawable_point xs ys p.
Proof. intros H Hg. destruct (multicontours_spec _ _ _ _ _ _ _ _ _ _ H Hg) as (H1 & H2 & H3 & _). auto. Qed.
Lemma multicontours_apart ctx xs ys mn mx cmn cmx w s mc :
  multicontours ctx xs ys mn mx cmn cmx = Ok (w, s) -> generates s mc ->
  forall i j vs ws, nth_error mc i = Some vs -> nth_error mc j = Some ws -> i <> j -> edges_apart vs ws /\ meet_at_most_once vs ws.
Proof. intros H Hg. apply parted_pairs, (multicontours_spec _ _ _ _ _ _ _ _ _ _ H Hg). Qed.
Lemma polygons_spec ctx xs ys mn mx hmn hmx smn smx w s p :
  polygons ctx xs ys mn mx hmn hmx smn smx = Ok (w, s) -> generates s p ->
  size_ok (lenZ (border p)) (Z.max mn 3) mx /\ size_ok (lenZ (holes p)) (Z.max hmn 0) hmx /\
  (forall vs : contour, In vs (holes p) -> size_ok (lenZ vs) (Z.max smn 3) smx) /\
  (forall q, In q (border p) -> drawable_point xs ys q) /\
  (forall vs q, In vs (holes p) -> In q vs -> drawable_point xs ys q) /\
  ForallOrdPairs parted (holes p).
Proof.
  intros H. unfold polygons in H. validate; try discriminate. injection H as _ <-.
  apply polygon_strategy_spec. change MIN_CONTOUR_SIZE with 3%Z. lia.
Qed.
Lemma polygons_sizes ctx xs ys mn mx hmn hmx smn smx w s p :
  polygons ctx xs ys mn mx hmn hmx smn smx = Ok (w, s) -> generates s p ->
  size_ok (lenZ (border p)) (Z.max mn 3) mx /\ size_ok (lenZ (holes p)) (Z.max hmn 0) hmx /\
  (forall vs : contour, In vs (holes p) -> size_ok (lenZ vs) (Z.max smn 3) smx) /\
  (forall q, In q (border p) -> drawable_point xs ys q) /\
  forall vs q, In vs (holes p) -> In q vs -> drawable_point xs ys q.
Proof. intros H Hg. destruct (polygons_spec _ _ _ _ _ _ _ _ _ _ _ _ H Hg) as (H1 & H2 & H3 & H4 & H5 & _). auto 6. Qed.
Lemma polygons_holes_apart ctx xs ys mn mx hmn hmx smn smx w s p :
  polygons ctx xs ys mn mx hmn hmx smn smx = Ok (w, s) -> generates s p ->
  forall i j vs ws, nth_error (holes p) i = Some vs -> nth_error (holes p) j = Some ws -> i <> j ->
    edges_apart vs ws /\ meet_at_most_once vs ws.
Proof. intros H Hg. apply parted_pairs, (polygons_spec _ _ _ _ _ _ _ _ _ _ _ _ H Hg). Qed.
(** Multipolygons and mixes, for the public API. *)
Lemma multipolygons_spec ctx xs ys mn mx bmn bmx hmn hmx smn smx w s ps :
  multipolygons ctx xs ys mn mx bmn bmx hmn hmx smn smx = Ok (w, s) -> generates s ps ->
  size_ok (lenZ ps) (Z.max mn 2) mx /\
  (forall p, In p ps -> polygon_sizes p (Z.max bmn 3) bmx hmn hmx (Z.max smn 3) smx /\
     forall q, In q (vertices p) -> drawable_point xs ys q) /\
  ForallOrdPairs apart_from ps.
Proof.
  intros H. unfold multipolygons in H. validate; try discriminate. injection H as _ <-.
  change MIN_MULTIPOLYGON_SIZE with 2%Z. change MIN_CONTOUR_SIZE with 3%Z.
  apply multipolygon_strategy_spec; try lia. intros -> m ->.
  match goal with K : ~ bad_sizes 0 (Some m) 0 |- _ => pose proof (clamped_range _ _ _ K m eq_refl) end. lia.
Qed.
Lemma multipolygons_sizes ctx xs ys mn mx bmn bmx hmn hmx smn smx w s ps :
  multipolygons ctx xs ys mn mx bmn bmx hmn hmx smn smx = Ok (w, s) -> generates s ps ->
  size_ok (lenZ ps) (Z.max mn 2) mx /\
  (forall p, In p ps -> polygon_sizes p (Z.max bmn 3) bmx hmn hmx (Z.max smn 3) smx).
Proof.
  intros H Hg. destruct (multipolygons_spec _ _ _ _ _ _ _ _ _ _ _ _ _ _ H Hg) as (H1 & H2 & _). split; [exact H1|]. intros p Hp. apply H2, Hp.
Qed.
Lemma multipolygons_drawable ctx xs ys mn mx bmn bmx hmn hmx smn smx w s ps :
  multipolygons ctx xs ys mn mx bmn bmx hmn hmx smn smx = Ok (w, s) -> generates s ps ->
  forall p q, In p ps -> In q (vertices p) -> drawable_point xs ys q.
Proof. intros H Hg p q Hp Hq. apply (multipolygons_spec _ _ _ _ _ _ _ _ _ _ _ _ _ _ H Hg) in Hp. apply Hp, Hq. Qed.
Lemma multipolygons_apart ctx xs ys mn mx bmn bmx hmn hmx smn smx w s ps :
  multipolygons ctx xs ys mn mx bmn bmx hmn hmx smn smx = Ok (w, s) -> generates s ps ->
  (forall i j p q, nth_error ps i = Some p -> nth_error ps j = Some q -> i <> j ->
    edges_apart (border p) (border q) /\ (split_by_line (vertices p) (vertices q) \/ split_by_line (vertices q) (vertices p))) /\
  (forall i j p q vs, nth_error ps i = Some p -> nth_error ps j = Some q -> i < j -> In vs (holes q) -> edges_apart (border p) vs).
Proof.
  intros H Hg. destruct (multipolygons_spec _ _ _ _ _ _ _ _ _ _ _ _ _ _ H Hg) as (_ & _ & F). split; [apply apart_pairs, F|].
  intros i j p q vs Hi Hj L Hv. apply (before_pairs _ _ F i j p q Hi Hj L). right. exact Hv.
Qed.
Lemma mixes_spec ctx xs ys pmn pmx gmn gmx qmn qmx mn mx hmn hmx smn smx w s m :
  (forall l, incl (ctx_hull ctx l) l) ->
  mixes ctx xs ys pmn pmx gmn gmx qmn qmx mn mx hmn hmx smn smx = Ok (w, s) -> generates s m ->
  exists P S Q, m = Mix (unpack_points P) (unpack S) (unpack Q) /\
    size_ok (lenZ P) (Z.max pmn 0) pmx /\ size_ok (lenZ S) (Z.max gmn 0) gmx /\ size_ok (lenZ Q) (Z.max qmn 0) qmx /\
    (1 <= lenZ P /\ 1 <= lenZ S \/ 1 <= lenZ P /\ 1 <= lenZ Q \/ 1 <= lenZ S /\ 1 <= lenZ Q)%Z /\
    mix_elements xs (ordinates xs ys) (Z.max mn 3) mx (Z.max hmn 0) hmx (Z.max smn 3) smx P S Q /\ mix_separated ctx xs (ordinates xs ys) P S Q.
Proof.
  intros Hh H Hg. unfold mixes in H. validate; try discriminate.
  pose proof (clamped_range pmn pmx 0 ltac:(assumption)) as Rp. pose proof (clamped_range gmn gmx 0 ltac:(assumption)) as Rg.
  pose proof (clamped_range qmn qmx 0 ltac:(assumption)) as Rq.
  match type of H with (let* _ := if ?c then _ else _ in _) = _ => destruct c eqn:Ec; [discriminate|] end. cbn [rbind] in H.
  change MIN_CONTOUR_SIZE with 3%Z in H. injection H as _ <-.
  assert (One : forall r m, may_have r = true -> r = Some m -> (0 <= m -> 1 <= m)%Z).
  { intros r m0 Hr -> Hm. cbn in Hr. destruct (Z.eqb_spec m0 0); [discriminate|]. lia. }
  assert (K : exists p' g' q', (Z.max pmn 0 <= p')%Z /\ (Z.max gmn 0 <= g')%Z /\ (Z.max qmn 0 <= q')%Z /\
    (forall m, pmx = Some m -> (p' <= m)%Z) /\ (1 <= p' /\ 1 <= g' \/ 1 <= p' /\ 1 <= q' \/ 1 <= g' /\ 1 <= q')%Z /\
    generates (to_mix_strategy ctx xs ys p' pmx g' gmx q' qmx (Z.max mn 3) mx (Z.max hmn 0) hmx (Z.max smn 3) smx) m).
  { destruct (may_have pmx) eqn:Ep, (may_have gmx) eqn:Eg, (may_have qmx) eqn:Eq;
      try (vm_compute in Ec; discriminate); repeat (apply gen_alt in Hg; destruct Hg as [Hg|Hg]);
      do 3 eexists; (split; [|split; [|split; [|split; [|split; [|exact Hg]]]]]); try lia;
      intros m0 Em; pose proof (Rp m0 Em); try lia; pose proof (One _ m0 Ep Em); lia. }
  destruct K as (p' & g' & q' & L1 & L2 & L3 & Rp' & Two & Hg'). apply mix_strategy_spec in Hg'; [|exact Hh|lia|lia|exact Rp'|lia].
  destruct Hg' as (P & S & Q & -> & S1 & S2 & S3 & El & Sep). exists P, S, Q. split; [reflexivity|].
  split; [eapply size_ok_weaken; eassumption|]. split; [eapply size_ok_weaken; eassumption|]. split; [eapply size_ok_weaken; eassumption|].
  split; [|split; [exact El|exact Sep]]. destruct S1 as (S1 & _), S2 as (S2 & _), S3 as (S3 & _). lia.
Qed.
Section Mixes.
Context ctx xs ys pmn pmx gmn gmx qmn qmx mn mx hmn hmx smn smx w s m (Hh : forall l, incl (ctx_hull ctx l) l)
    (H : mixes ctx xs ys pmn pmx gmn gmx qmn qmx mn mx hmn hmx smn smx = Ok (w, s)) (Hg : generates s m).
Lemma mixes_sizes :
    size_ok (lenZ (elements (discrete m))) (Z.max pmn 0) pmx /\ size_ok (lenZ (elements (linear m))) (Z.max gmn 0) gmx /\
    size_ok (lenZ (elements (shaped m))) (Z.max qmn 0) qmx /\
    (forall q, In q (elements (shaped m)) -> polygon_sizes q (Z.max mn 3) mx (Z.max hmn 0) hmx (Z.max smn 3) smx).
  Proof.
    destruct (mixes_spec _ _ _ _ _ _ _ _ _ _ _ _ _ _ _ _ _ _ Hh H Hg) as (P & S & Q & -> & S1 & S2 & S3 & _ & (_ & _ & El) & _).
    cbn [discrete linear shaped]. rewrite elements_unpack_points, !elements_unpack. repeat (split; [assumption|]). intros q Hq. apply El, Hq.
  Qed.
Lemma mixes_two :
    nonempty (discrete m) /\ nonempty (linear m) \/ nonempty (discrete m) /\ nonempty (shaped m) \/ nonempty (linear m) /\ nonempty (shaped m).
  Proof.
    destruct (mixes_spec _ _ _ _ _ _ _ _ _ _ _ _ _ _ _ _ _ _ Hh H Hg) as (P & S & Q & -> & _ & _ & _ & Two & _).
    cbn [discrete linear shaped]. rewrite unpack_points_nonempty, !unpack_nonempty. exact Two.
  Qed.
Lemma mixes_parts :
    match discrete m with EmptyPart => True | SinglePart _ => False | MultiPart l => (1 <= lenZ l)%Z end /\
    match linear m with EmptyPart => True | SinglePart _ => True | MultiPart l => (2 <= lenZ l)%Z end /\
    match shaped m with EmptyPart => True | SinglePart _ => True | MultiPart l => (2 <= lenZ l)%Z end.
  Proof.
    destruct (mixes_spec _ _ _ _ _ _ _ _ _ _ _ _ _ _ _ _ _ _ Hh H Hg) as (P & S & Q & -> & _). cbn [discrete linear shaped].
    unfold lenZ. destruct P as [|p P], S as [|s1 [|s2 S]], Q as [|q1 [|q2 Q]]; cbn [unpack_points unpack]; (split; [|split]); cbn [Datatypes.length]; try exact I; lia.
  Qed.
Lemma mixes_coordinates :
    (forall p, In p (elements (discrete m)) -> drawable_point xs ys p) /\
    (forall t, In t (elements (linear m)) -> 
       (in_drawable_range xs (px (seg_start t)) /\ in_drawable_range (ordinates xs ys) (py (seg_start t))) /\
       (in_drawable_range xs (px (seg_end t)) /\ in_drawable_range (ordinates xs ys) (py (seg_end t)))) /\
    (forall q v, In q (elements (shaped m)) -> In v (vertices q) -> drawable_point xs ys v).
  Proof.
    destruct (mixes_spec _ _ _ _ _ _ _ _ _ _ _ _ _ _ _ _ _ _ Hh H Hg) as (P & S & Q & -> & _ & _ & _ & _ & (E1 & E2 & E3) & _).
    cbn [discrete linear shaped]. rewrite elements_unpack_points, !elements_unpack. split; [exact E1|]. split; [exact E2|].
    intros q v Hq Hv. apply E3 in Hq. apply Hq, Hv.
  Qed.
Lemma mixes_points_aside :
    NoDup (elements (discrete m)) /\
    (forall p t, In p (elements (discrete m)) -> In t (elements (linear m)) ->
       aside p [seg_start t; seg_end t] /\ ~ on_segment p (seg_start t) (seg_end t)) /\
    (forall p q, In p (elements (discrete m)) -> In q (elements (shaped m)) ->
       aside p (vertices q) /\ forall vs, In vs (border q :: holes q) -> ~ on_contour p vs).
  Proof.
    destruct (mixes_spec _ _ _ _ _ _ _ _ _ _ _ _ _ _ _ _ _ _ Hh H Hg) as (P & S & Q & -> & _ & _ & _ & _ & _ & (E1 & E2 & E3 & _)).
    cbn [discrete linear shaped]. rewrite elements_unpack_points, !elements_unpack. split; [exact E1|]. split.
    - intros p t Hp Ht. split; [apply E2; assumption|]. eapply aside_segment; [apply E2; eassumption|cbn; auto|cbn; auto].
    - intros p q Hp Hq. split; [apply E3; assumption|]. intros vs Hvs (u & v & E & Hon). apply (contour_vertices q _ _ _ Hvs) in E.
      revert Hon. eapply aside_segment; [apply E3; eassumption|apply E|apply E].
  Qed.
Lemma mixes_apart :
    (forall t q u v, In t (elements (linear m)) -> In q (elements (shaped m)) -> contour_edge (border q) u v -> ~ interiors_meet t (Seg u v)) /\
    (forall t q, In t (elements (linear m)) -> In q (elements (shaped m)) ->
       split_by_line [seg_start t; seg_end t] (vertices q) \/ split_by_line (vertices q) [seg_start t; seg_end t]) /\
    (forall i j p q, nth_error (elements (shaped m)) i = Some p -> nth_error (elements (shaped m)) j = Some q -> i <> j ->
       edges_apart (border p) (border q) /\ (split_by_line (vertices p) (vertices q) \/ split_by_line (vertices q) (vertices p))).
  Proof.
    destruct (mixes_spec _ _ _ _ _ _ _ _ _ _ _ _ _ _ _ _ _ _ Hh H Hg) as (P & S & Q & -> & _ & _ & _ & _ & _ & (_ & _ & _ & E4 & E5 & E6)).
    cbn [discrete linear shaped]. rewrite !elements_unpack. split; [|split].
    - intros t q u v Ht Hq. apply E5; assumption.
    - intros t q Ht Hq. apply E5; assumption.
    - apply apart_pairs, E6.
  Qed.
End Mixes.
End Rough.
