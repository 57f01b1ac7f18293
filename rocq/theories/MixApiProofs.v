(** Multipolygons and mixes, for the public API. *)
From Verif Require Import Base Prog Geometry Ctx Utils Contracts Factories Strategies Planar Spec MixSpec ProgProofs
  PlanarProofs QcTac GeomProofs EdgeProofs SeparationProofs MultiProofs ContourProofs GeometryApiProofs SliceProofs
  SequenceProofs MultipolygonProofs MixProofs.

Lemma multipolygons_spec ctx xs ys mn mx bmn bmx hmn hmx smn smx w s ps :
  multipolygons ctx xs ys mn mx bmn bmx hmn hmx smn smx = Ok (w, s) -> generates s ps ->
  size_ok (lenZ ps) (Z.max mn 2) mx /\
  (forall p, In p ps -> polygon_sizes p (Z.max bmn 3) bmx hmn hmx (Z.max smn 3) smx /\
     forall q, In q (vertices p) -> drawable_point xs ys q) /\
  ForallOrdPairs apart_from ps.
Proof.
  intros H. unfold multipolygons in H. validate; try discriminate. injection H as _ <-.
  change MIN_MULTIPOLYGON_SIZE with 2%Z. change MIN_CONTOUR_SIZE with 3%Z.
  apply multipolygon_strategy_spec; try lia. intros -> m ->.
  match goal with K : ~ bad_sizes 0 (Some m) 0 |- _ => pose proof (clamped_range _ _ _ K m eq_refl) end. lia.
Qed.
Lemma multipolygons_sizes ctx xs ys mn mx bmn bmx hmn hmx smn smx w s ps :
  multipolygons ctx xs ys mn mx bmn bmx hmn hmx smn smx = Ok (w, s) -> generates s ps ->
  size_ok (lenZ ps) (Z.max mn 2) mx /\
  (forall p, In p ps -> polygon_sizes p (Z.max bmn 3) bmx hmn hmx (Z.max smn 3) smx).
Proof.
  intros H Hg. destruct (multipolygons_spec _ _ _ _ _ _ _ _ _ _ _ _ _ _ H Hg) as (H1 & H2 & _). split; [exact H1|]. intros p Hp. apply H2, Hp.
Qed.
Lemma multipolygons_drawable ctx xs ys mn mx bmn bmx hmn hmx smn smx w s ps :
  multipolygons ctx xs ys mn mx bmn bmx hmn hmx smn smx = Ok (w, s) -> generates s ps ->
  forall p q, In p ps -> In q (vertices p) -> drawable_point xs ys q.
Proof. intros H Hg p q Hp Hq. apply (multipolygons_spec _ _ _ _ _ _ _ _ _ _ _ _ _ _ H Hg) in Hp. apply Hp, Hq. Qed.
Lemma apart_pairs (ps : list polygon) : ForallOrdPairs apart_from ps ->
  forall i j p q, nth_error ps i = Some p -> nth_error ps j = Some q -> i <> j ->
  edges_apart (border p) (border q) /\ (split_by_line (vertices p) (vertices q) \/ split_by_line (vertices q) (vertices p)).
Proof.
  intros F. apply ordered_pairs_nth.
  - intros x y (H1 & H2). split; [apply apart_sym, H1|tauto].
  - revert F. apply ForallOrdPairs_impl. intros x y (H1 & H2). split; [apply H2; left; reflexivity|left; exact H1].
Qed.
Lemma before_pairs {A} (R : A -> A -> Prop) l : ForallOrdPairs R l ->
  forall i j x y, nth_error l i = Some x -> nth_error l j = Some y -> i < j -> R x y.
Proof.
  induction 1 as [|z l Hz F IH]; intros i j x y Hi Hj L; [destruct i; discriminate|].
  destruct i as [|i], j as [|j]; try lia.
  - injection Hi as ->. change (nth_error l j = Some y) in Hj. apply nth_error_In in Hj. rewrite Forall_forall in Hz. apply Hz, Hj.
  - apply (IH i j); [exact Hi|exact Hj|lia].
Qed.
Lemma multipolygons_apart ctx xs ys mn mx bmn bmx hmn hmx smn smx w s ps :
  multipolygons ctx xs ys mn mx bmn bmx hmn hmx smn smx = Ok (w, s) -> generates s ps ->
  (forall i j p q, nth_error ps i = Some p -> nth_error ps j = Some q -> i <> j ->
    edges_apart (border p) (border q) /\ (split_by_line (vertices p) (vertices q) \/ split_by_line (vertices q) (vertices p))) /\
  (forall i j p q vs, nth_error ps i = Some p -> nth_error ps j = Some q -> i < j -> In vs (holes q) -> edges_apart (border p) vs).
Proof.
  intros H Hg. destruct (multipolygons_spec _ _ _ _ _ _ _ _ _ _ _ _ _ _ H Hg) as (_ & _ & F). split; [apply apart_pairs, F|].
  intros i j p q vs Hi Hj L Hv. apply (before_pairs _ _ F i j p q Hi Hj L). right. exact Hv.
Qed.

Lemma unpack_points_nonempty P : nonempty (unpack_points P) <-> (1 <= lenZ P)%Z.
Proof. unfold nonempty, lenZ. destruct P; cbn; split; intros; try discriminate; try lia; congruence. Qed.
Lemma unpack_nonempty {A} (l : list A) : nonempty (unpack l) <-> (1 <= lenZ l)%Z.
Proof. unfold nonempty, lenZ. destruct l as [|x [|y l]]; cbn; split; intros; try discriminate; try lia; congruence. Qed.
Lemma size_ok_weaken n mn mn' mx : size_ok n mn mx -> (mn' <= mn)%Z -> size_ok n mn' mx.
Proof. intros (H1 & H2) H. split; [lia|exact H2]. Qed.
Lemma mixes_spec ctx xs ys pmn pmx gmn gmx qmn qmx mn mx hmn hmx smn smx w s m :
  (forall l, is_hull l (ctx_hull ctx l)) ->
  mixes ctx xs ys pmn pmx gmn gmx qmn qmx mn mx hmn hmx smn smx = Ok (w, s) -> generates s m ->
  exists P S Q, m = Mix (unpack_points P) (unpack S) (unpack Q) /\
    size_ok (lenZ P) (Z.max pmn 0) pmx /\ size_ok (lenZ S) (Z.max gmn 0) gmx /\ size_ok (lenZ Q) (Z.max qmn 0) qmx /\
    (1 <= lenZ P /\ 1 <= lenZ S \/ 1 <= lenZ P /\ 1 <= lenZ Q \/ 1 <= lenZ S /\ 1 <= lenZ Q)%Z /\
    mix_elements xs (ordinates xs ys) (Z.max mn 3) mx (Z.max hmn 0) hmx (Z.max smn 3) smx P S Q /\ mix_separated ctx xs (ordinates xs ys) P S Q.
Proof.
  intros Hh H Hg. unfold mixes in H. validate; try discriminate.
  pose proof (clamped_range pmn pmx 0 ltac:(assumption)) as Rp. pose proof (clamped_range gmn gmx 0 ltac:(assumption)) as Rg.
  pose proof (clamped_range qmn qmx 0 ltac:(assumption)) as Rq.
  match type of H with (let* _ := if ?c then _ else _ in _) = _ => destruct c eqn:Ec; [discriminate|] end. cbn [rbind] in H.
  change MIN_CONTOUR_SIZE with 3%Z in H. injection H as _ <-.
  assert (One : forall r m, may_have r = true -> r = Some m -> (0 <= m -> 1 <= m)%Z).
  { intros r m0 Hr -> Hm. cbn in Hr. destruct (Z.eqb_spec m0 0); [discriminate|]. lia. }
  assert (K : exists p' g' q', (Z.max pmn 0 <= p')%Z /\ (Z.max gmn 0 <= g')%Z /\ (Z.max qmn 0 <= q')%Z /\
    (forall m, pmx = Some m -> (p' <= m)%Z) /\ (1 <= p' /\ 1 <= g' \/ 1 <= p' /\ 1 <= q' \/ 1 <= g' /\ 1 <= q')%Z /\
    generates (to_mix_strategy ctx xs ys p' pmx g' gmx q' qmx (Z.max mn 3) mx (Z.max hmn 0) hmx (Z.max smn 3) smx) m).
  { destruct (may_have pmx) eqn:Ep, (may_have gmx) eqn:Eg, (may_have qmx) eqn:Eq;
      try (vm_compute in Ec; discriminate); repeat (apply gen_alt in Hg; destruct Hg as [Hg|Hg]);
      do 3 eexists; (split; [|split; [|split; [|split; [|split; [|exact Hg]]]]]); try lia;
      intros m0 Em; pose proof (Rp m0 Em); try lia; pose proof (One _ m0 Ep Em); lia. }
  destruct K as (p' & g' & q' & L1 & L2 & L3 & Rp' & Two & Hg'). apply mix_strategy_spec in Hg'; [|exact Hh|lia|lia|exact Rp'|lia].
  destruct Hg' as (P & S & Q & -> & S1 & S2 & S3 & El & Sep). exists P, S, Q. split; [reflexivity|].
  split; [eapply size_ok_weaken; eassumption|]. split; [eapply size_ok_weaken; eassumption|]. split; [eapply size_ok_weaken; eassumption|].
  split; [|split; [exact El|exact Sep]]. destruct S1 as (S1 & _), S2 as (S2 & _), S3 as (S3 & _). lia.
Qed.
Lemma segment_draw_spec ctx xs ys g : (forall l, is_hull l (ctx_hull ctx l)) -> segment_draw ctx xs ys g -> one_draw g.
Proof.
  intros Hh [->|(a & l & count & Hc & Hd & H)]; [left; intros i j s t Hs; destruct i; discriminate|].
  unfold draw_segments in H. destruct (sliced a (py_take l count) xs ys) as (sx & sy) eqn:E.
  apply segment_sequence_spec in H; [|exact Hh|apply Z.div_pos; lia|intros m Em; injection Em as <-; lia].
  destruct H as (_ & _ & [H|(vs & _ & Hn & rest & Hr)]); [left; exact H|right; exists vs, rest; auto].
Qed.
Section Mixes.
  Context ctx xs ys pmn pmx gmn gmx qmn qmx mn mx hmn hmx smn smx w s m (Hh : forall l, is_hull l (ctx_hull ctx l))
    (H : mixes ctx xs ys pmn pmx gmn gmx qmn qmx mn mx hmn hmx smn smx = Ok (w, s)) (Hg : generates s m).
  Lemma mixes_sizes :
    size_ok (lenZ (elements (discrete m))) (Z.max pmn 0) pmx /\ size_ok (lenZ (elements (linear m))) (Z.max gmn 0) gmx /\
    size_ok (lenZ (elements (shaped m))) (Z.max qmn 0) qmx /\
    (forall q, In q (elements (shaped m)) -> polygon_sizes q (Z.max mn 3) mx (Z.max hmn 0) hmx (Z.max smn 3) smx).
  Proof.
    destruct (mixes_spec _ _ _ _ _ _ _ _ _ _ _ _ _ _ _ _ _ _ Hh H Hg) as (P & S & Q & -> & S1 & S2 & S3 & _ & (_ & _ & El) & _).
    cbn [discrete linear shaped]. rewrite elements_unpack_points, !elements_unpack. repeat (split; [assumption|]). intros q Hq. apply El, Hq.
  Qed.
  Lemma mixes_two :
    nonempty (discrete m) /\ nonempty (linear m) \/ nonempty (discrete m) /\ nonempty (shaped m) \/ nonempty (linear m) /\ nonempty (shaped m).
  Proof.
    destruct (mixes_spec _ _ _ _ _ _ _ _ _ _ _ _ _ _ _ _ _ _ Hh H Hg) as (P & S & Q & -> & _ & _ & _ & Two & _).
    cbn [discrete linear shaped]. rewrite unpack_points_nonempty, !unpack_nonempty. exact Two.
  Qed.
  Lemma mixes_parts :
    match discrete m with EmptyPart => True | SinglePart _ => False | MultiPart l => (1 <= lenZ l)%Z end /\
    match linear m with EmptyPart => True | SinglePart _ => True | MultiPart l => (2 <= lenZ l)%Z end /\
    match shaped m with EmptyPart => True | SinglePart _ => True | MultiPart l => (2 <= lenZ l)%Z end.
  Proof.
    destruct (mixes_spec _ _ _ _ _ _ _ _ _ _ _ _ _ _ _ _ _ _ Hh H Hg) as (P & S & Q & -> & _). cbn [discrete linear shaped].
    unfold lenZ. destruct P as [|p P], S as [|s1 [|s2 S]], Q as [|q1 [|q2 Q]]; cbn [unpack_points unpack]; (split; [|split]); cbn [Datatypes.length]; try exact I; lia.
  Qed.
  Lemma mixes_coordinates :
    (forall p, In p (elements (discrete m)) -> drawable_point xs ys p) /\
    (forall t, In t (elements (linear m)) -> seg_start t <> seg_end t /\
       (in_drawable_range xs (px (seg_start t)) /\ in_drawable_range (ordinates xs ys) (py (seg_start t))) /\
       (in_drawable_range xs (px (seg_end t)) /\ in_drawable_range (ordinates xs ys) (py (seg_end t)))) /\
    (forall q v, In q (elements (shaped m)) -> In v (vertices q) -> drawable_point xs ys v).
  Proof.
    destruct (mixes_spec _ _ _ _ _ _ _ _ _ _ _ _ _ _ _ _ _ _ Hh H Hg) as (P & S & Q & -> & _ & _ & _ & _ & (E1 & E2 & E3) & _).
    cbn [discrete linear shaped]. rewrite elements_unpack_points, !elements_unpack. split; [exact E1|]. split; [exact E2|].
    intros q v Hq Hv. apply E3 in Hq. apply Hq, Hv.
  Qed.
  Lemma mixes_points_aside :
    NoDup (elements (discrete m)) /\
    (forall p t, In p (elements (discrete m)) -> In t (elements (linear m)) ->
       aside p [seg_start t; seg_end t] /\ ~ on_segment p (seg_start t) (seg_end t)) /\
    (forall p q, In p (elements (discrete m)) -> In q (elements (shaped m)) ->
       aside p (vertices q) /\ forall vs, In vs (border q :: holes q) -> ~ on_contour p vs).
  Proof.
    destruct (mixes_spec _ _ _ _ _ _ _ _ _ _ _ _ _ _ _ _ _ _ Hh H Hg) as (P & S & Q & -> & _ & _ & _ & _ & _ & (E1 & E2 & E3 & _)).
    cbn [discrete linear shaped]. rewrite elements_unpack_points, !elements_unpack. split; [exact E1|]. split.
    - intros p t Hp Ht. split; [apply E2; assumption|]. eapply aside_segment; [apply E2; eassumption|cbn; auto|cbn; auto].
    - intros p q Hp Hq. split; [apply E3; assumption|]. intros vs Hvs (u & v & E & Hon). apply (contour_vertices q _ _ _ Hvs) in E.
      revert Hon. eapply aside_segment; [apply E3; eassumption|apply E|apply E].
  Qed.
  Lemma mixes_apart :
    (exists groups, elements (linear m) = List.concat groups /\ (forall g, In g groups -> one_draw g) /\
       forall i j g g' t u, nth_error groups i = Some g -> nth_error groups j = Some g' -> i <> j -> In t g -> In u g' -> ~ interiors_meet t u) /\
    (forall t q u v, In t (elements (linear m)) -> In q (elements (shaped m)) -> contour_edge (border q) u v -> ~ interiors_meet t (Seg u v)) /\
    (forall t q, In t (elements (linear m)) -> In q (elements (shaped m)) ->
       split_by_line [seg_start t; seg_end t] (vertices q) \/ split_by_line (vertices q) [seg_start t; seg_end t]) /\
    (forall i j p q, nth_error (elements (shaped m)) i = Some p -> nth_error (elements (shaped m)) j = Some q -> i <> j ->
       edges_apart (border p) (border q) /\ (split_by_line (vertices p) (vertices q) \/ split_by_line (vertices q) (vertices p))).
  Proof.
    destruct (mixes_spec _ _ _ _ _ _ _ _ _ _ _ _ _ _ _ _ _ _ Hh H Hg) as (P & S & Q & -> & _ & _ & _ & _ & _ & (_ & _ & _ & E4 & E5 & E6)).
    cbn [discrete linear shaped]. rewrite !elements_unpack. split; [|split; [|split]].
    - destruct E4 as (groups & E & G1 & G2). exists groups. split; [exact E|]. split; [intros g Hgr; apply (segment_draw_spec ctx xs (ordinates xs ys) g Hh (G1 g Hgr))|]. intros i j g g' t u Hi Hj N.
      assert (Sy : forall x y : list segment, (forall t u, In t x -> In u y -> ~ interiors_meet t u) ->
        forall t u, In t y -> In u x -> ~ interiors_meet t u).
      { intros x y K t' u' Ht Hu M. apply (K u' t' Hu Ht), SegmentProofs.interiors_meet_sym, M. }
      apply (ordered_pairs_nth _ _ Sy G2 i j g g' Hi Hj N).
    - intros t q u v Ht Hq. apply E5; assumption.
    - intros t q Ht Hq. apply E5; assumption.
    - apply apart_pairs, E6.
  Qed.
End Mixes.
