(** Relaxing the arguments of a call of the public API. *)
From Verif Require Import Base Prog Geometry Ctx Utils Contracts Factories Strategies Planar Spec RelaxSpec ProgProofs
  GeomProofs PrimeProofs PlanarProofs RelaxProofs.
Import List ListNotations.
Local Open Scope Z_scope.

Lemma not_bad_fits mn mx l : ~ bad_sizes mn mx l -> fits (Z.max mn l) mx.
Proof.
  intros H m E. destruct (Z_lt_le_dec m (Z.max mn l)) as [Hl|Hl]; [|exact Hl]. exfalso. apply H. exists m. split; [exact E|]. lia.
Qed.
Lemma clamp_between mn mx l : l <= 3 -> prime_between mn mx -> prime_between (Z.max mn l) mx.
Proof. intros Hl H m E. destruct (H m E) as (q & Hq & H3 & Hm). exists q. split; [exact Hq|]. lia. Qed.
(** Either nothing changes, or there is a prime number between the old minimum and the new maximum. *)
Definition same_or (mn : Z) (mx : option Z) (mn' : Z) (mx' : option Z) : Prop :=
  (mn' = mn /\ mx' = mx) \/ prime_between mn mx'.
Lemma clamp_relaxed mn mx mn' mx' : wider mn mx mn' mx' -> same_or mn mx mn' mx' -> relaxed (Z.max mn 3) mx (Z.max mn' 3) mx'.
Proof.
  intros W S. split; [apply wider_max, W|]. destruct S as [(-> & ->)|S]; [left; auto|right]. apply clamp_between; [lia|exact S].
Qed.

Section Api.
  Context (ctx : context) (xs xs' : scalars) (ys ys' : option scalars)
          (Rx : richer xs xs') (Ry : richer (ordinates xs ys) (ordinates xs' ys')).

  Ltac calls :=
    match goal with
    | H : _ = Ok (_, ?s), H' : _ = Ok (_, ?s') |- covered ?s ?s' =>
        validate_hyp; try discriminate; injection H as _ <-; injection H' as _ <-
    end.
  (** Replace the optional ordinates by given ones on both sides. *)
  Ltac given :=
    match goal with
    | |- covered ?p ?q =>
        let p' := eval pattern ys in p in
        let q' := eval pattern ys' in q in
        match p' with
        | ?f _ =>
            match q' with
            | ?g _ =>
                let E := fresh in
                let E' := fresh in
                assert (E : p = f (Some (ordinates xs ys))) by (clear; destruct ys; reflexivity);
                assert (E' : q = g (Some (ordinates xs' ys'))) by (clear; destruct ys'; reflexivity);
                rewrite E, E'; clear E E'; cbv beta
            end
        end
    end.

  Lemma points_relax w s w' s' : points xs ys = Ok (w, s) -> points xs' ys' = Ok (w', s') -> covered s s'.
  Proof. unfold points. intros H H'. injection H as _ <-. injection H' as _ <-. given. apply cov_point; assumption. Qed.
  Lemma segments_relax w s w' s' : segments xs ys = Ok (w, s) -> segments xs' ys' = Ok (w', s') -> covered s s'.
  Proof. unfold segments. intros H H'. injection H as _ <-. injection H' as _ <-. given. apply cov_segment; assumption. Qed.
  Lemma boxes_relax w s w' s' : boxes xs ys = Ok (w, s) -> boxes xs' ys' = Ok (w', s') -> covered s s'.
  Proof. unfold boxes. intros H H'. injection H as _ <-. injection H' as _ <-. given. apply cov_box; assumption. Qed.
  Lemma rectangular_relax w s w' s' : rectangular_contours xs ys = Ok (w, s) -> rectangular_contours xs' ys' = Ok (w', s') -> covered s s'.
  Proof. unfold rectangular_contours. intros H H'. injection H as _ <-. injection H' as _ <-. given. apply cov_rectangle; assumption. Qed.
  Lemma triangular_relax w s w' s' : triangular_contours xs ys = Ok (w, s) -> triangular_contours xs' ys' = Ok (w', s') -> covered s s'.
  Proof. unfold triangular_contours. intros H H'. injection H as _ <-. injection H' as _ <-. given. apply cov_triangle; assumption. Qed.

  Section One.
    Context (mn : Z) (mx : option Z) (mn' : Z) (mx' : option Z) (W : wider mn mx mn' mx').
    Lemma multipoints_relax w s w' s' : multipoints xs ys mn mx = Ok (w, s) -> multipoints xs' ys' mn' mx' = Ok (w', s') -> covered s s'.
    Proof.
      unfold multipoints. intros H H'. calls. unfold to_multipoint_strategy. given.
      apply cov_multipoint; [assumption|assumption|apply wider_max, W|unfold MIN_MULTIPOINT_SIZE; lia].
    Qed.
    Context (S : same_or mn mx mn' mx').
    Lemma contours_relax w s w' s' : contours ctx xs ys mn mx = Ok (w, s) -> contours ctx xs' ys' mn' mx' = Ok (w', s') -> covered s s'.
    Proof.
      unfold contours. intros H H'. calls. given. change MIN_CONTOUR_SIZE with 3 in *.
      apply cov_contour; [assumption|assumption|apply clamp_relaxed; assumption|lia|apply not_bad_fits; assumption].
    Qed.
    Lemma convex_contours_relax w s w' s' : convex_contours ctx xs ys mn mx = Ok (w, s) -> convex_contours ctx xs' ys' mn' mx' = Ok (w', s') -> covered s s'.
    Proof.
      unfold convex_contours. intros H H'. calls. given. change CONVEX with 3 in *.
      apply cov_convex; [assumption|assumption|apply clamp_relaxed; assumption|lia|apply not_bad_fits; assumption].
    Qed.
    Lemma star_contours_relax w s w' s' : star_contours ctx xs ys mn mx = Ok (w, s) -> star_contours ctx xs' ys' mn' mx' = Ok (w', s') -> covered s s'.
    Proof.
      unfold star_contours. intros H H'. calls. given. change MIN_CONTOUR_SIZE with 3 in *.
      apply cov_star; [assumption|assumption|apply clamp_relaxed; assumption|lia].
    Qed.
    Lemma concave_contours_relax w s w' s' : concave_contours ctx xs ys mn mx = Ok (w, s) -> concave_contours ctx xs' ys' mn' mx' = Ok (w', s') -> covered s s'.
    Proof.
      unfold concave_contours. intros H H'. calls. given. change CONCAVE with 4 in *.
      apply cov_concave; [assumption|assumption| |lia|apply not_bad_fits; assumption]. split; [apply wider_max, W|]. destruct S as [(-> & ->)|P]; [left; auto|right].
      intros m E. destruct (P m E) as (q & Hq & H3 & Hm). exists q. split; [exact Hq|]. lia.
    Qed.
    Lemma multisegments_relax w s w' s' : multisegments ctx xs ys mn mx = Ok (w, s) -> multisegments ctx xs' ys' mn' mx' = Ok (w', s') -> covered s s'.
    Proof.
      unfold multisegments. intros H H'. calls. unfold to_multisegment_strategy. given. change MIN_MULTISEGMENT_SIZE with 2 in *.
      apply cov_multisegment; [assumption|assumption|apply wider_max, W|apply not_bad_fits; assumption| |lia|lia].
      destruct S as [(-> & ->)|P]; [left; auto|right]. rewrite <- Z.max_assoc. apply clamp_between; [lia|exact P].
    Qed.
  End One.
  Lemma multicontours_relax mn mx mn' mx' cmn cmx cmn' cmx' w s w' s' : wider mn mx mn' mx' -> wider cmn cmx cmn' cmx' ->
    (mn' = mn /\ mx' = mx /\ cmn' = cmn /\ cmx' = cmx) \/ prime_between (Z.max mn 2 * Z.max cmn 3) (max_product mx' cmx') ->
    multicontours ctx xs ys mn mx cmn cmx = Ok (w, s) -> multicontours ctx xs' ys' mn' mx' cmn' cmx' = Ok (w', s') -> covered s s'.
  Proof.
    intros W1 W2 S. unfold multicontours. intros H H'. calls. given.
    change MIN_CONTOUR_SIZE with 3 in *. change MIN_MULTICONTOUR_SIZE with 2 in *.
    apply cov_multicontour; [assumption|assumption|apply wider_max, W1|apply wider_max, W2|apply not_bad_fits; assumption|apply not_bad_fits; assumption|lia|lia|].
    destruct S as [(-> & -> & -> & ->)|P]; [left; auto|right; exact P].
  Qed.
  Section Poly.
    Context (mn : Z) (mx : option Z) (mn' : Z) (mx' : option Z) (W1 : wider mn mx mn' mx')
            (hmn : Z) (hmx : option Z) (hmn' : Z) (hmx' : option Z) (W2 : wider hmn hmx hmn' hmx')
            (smn : Z) (smx : option Z) (smn' : Z) (smx' : option Z) (W3 : wider smn smx smn' smx').
    Definition polygon_room : Prop := prime_between (Z.max mn 3 + Z.max hmn 0 * Z.max smn 3) (max_vertices mx' hmx' smx').
    Definition polygon_same : Prop := mn' = mn /\ mx' = mx /\ hmn' = hmn /\ hmx' = hmx /\ smn' = smn /\ smx' = smx.
    Lemma polygons_relax w s w' s' : polygon_same \/ polygon_room ->
      polygons ctx xs ys mn mx hmn hmx smn smx = Ok (w, s) -> polygons ctx xs' ys' mn' mx' hmn' hmx' smn' smx' = Ok (w', s') -> covered s s'.
    Proof.
      intros S. unfold polygons. intros H H'. calls. given. change MIN_CONTOUR_SIZE with 3 in *.
      apply cov_polygon; [apply wider_max, W1|apply not_bad_fits; assumption|lia|apply wider_max, W2|apply not_bad_fits; assumption|lia
        |apply wider_max, W3|apply not_bad_fits; assumption|lia| |assumption|assumption].
      destruct S as [(-> & -> & -> & -> & -> & ->)|P]; [left; repeat split|right; exact P].
    Qed.
    Lemma multipolygons_relax gmn gmx gmn' gmx' w s w' s' : wider gmn gmx gmn' gmx' -> 0 <= hmn' ->
      (gmn' = gmn /\ gmx' = gmx /\ polygon_same)
      \/ (polygon_room /\ (hmn = 0 -> prime_between (Z.max gmn 2 * Z.max mn 3) (max_product gmx' mx'))) ->
      multipolygons ctx xs ys gmn gmx mn mx hmn hmx smn smx = Ok (w, s) ->
      multipolygons ctx xs' ys' gmn' gmx' mn' mx' hmn' hmx' smn' smx' = Ok (w', s') -> covered s s'.
    Proof.
      intros W0 H0 S. assert (hmn' <= hmn) by apply W2. unfold polygon_room in S. replace (Z.max hmn 0) with hmn in S by lia.
      unfold multipolygons. intros H1 H1'. calls. given.
      change MIN_CONTOUR_SIZE with 3 in *. change MIN_MULTIPOLYGON_SIZE with 2 in *.
      assert (F2 : fits hmn hmx).
      { intros m E. destruct (Z_lt_le_dec m hmn) as [Hl|Hl]; [|exact Hl]. exfalso.
        match goal with B : ~ bad_sizes hmn hmx 0 |- _ => apply B end. exists m. auto. }
      apply cov_multipolygon; [apply wider_max, W1|apply not_bad_fits; assumption|lia|exact W2|exact F2|exact H0
        |apply wider_max, W3|apply not_bad_fits; assumption|lia| |assumption|assumption|apply wider_max, W0|apply not_bad_fits; assumption|lia|].
      - destruct S as [(-> & -> & -> & -> & -> & -> & -> & ->)|(P & _)]; [left; repeat split|right; exact P].
      - destruct S as [(-> & -> & -> & -> & -> & -> & -> & ->)|P]; [left; repeat split|right; exact P].
    Qed.
    Lemma mixes_relax pmn pmx pmn' tmn tmx tmn' tmx' gmn gmx gmn' gmx' w s w' s' :
      pmn' <= pmn -> wider tmn tmx tmn' tmx' -> wider gmn gmx gmn' gmx' -> polygon_same \/ polygon_room ->
      mixes ctx xs ys pmn pmx tmn tmx gmn gmx mn mx hmn hmx smn smx = Ok (w, s) ->
      mixes ctx xs' ys' pmn' pmx tmn' tmx' gmn' gmx' mn' mx' hmn' hmx' smn' smx' = Ok (w', s') -> covered s s'.
    Proof.
      intros Wp Wt Wg S. unfold mixes. change MIN_CONTOUR_SIZE with 3. intros H H'. validate_hyp; try discriminate.
      assert (C : forall a a' b b' c c', 0 <= a' <= a -> (forall m, pmx = Some m -> a <= m) ->
        wider b tmx b' tmx' -> 0 <= b' -> wider c gmx c' gmx' -> 0 <= c' ->
        covered (to_mix_strategy ctx xs ys a pmx b tmx c gmx (Z.max mn 3) mx (Z.max hmn 0) hmx (Z.max smn 3) smx)
                (to_mix_strategy ctx xs' ys' a' pmx b' tmx' c' gmx' (Z.max mn' 3) mx' (Z.max hmn' 0) hmx' (Z.max smn' 3) smx')).
      { intros a a' b b' c c' Ha Fa Wb Hb Wc Hc. given.
        apply cov_mix; try (apply wider_max; assumption); try (apply not_bad_fits; assumption); try assumption; try lia.
        destruct S as [(-> & -> & -> & -> & -> & ->)|P]; [left; repeat split|right; exact P]. }
      assert (Fp : forall m, pmx = Some m -> Z.max pmn 0 <= m) by (apply not_bad_fits; assumption).
      assert (Fp1 : may_have pmx = true -> forall m, pmx = Some m -> Z.max (Z.max pmn 0) 1 <= m).
      { intros Hm m E. specialize (Fp m E). rewrite E in Hm. cbn [may_have] in Hm. destruct (Z.eqb_spec m 0); [discriminate|]. lia. }
      assert (Mh : forall a b m m', wider a m b m' -> (forall k, m = Some k -> 0 <= k) -> may_have m = true -> may_have m' = true).
      { intros a b m m' (_ & Wm) Hk Hm. destruct m' as [k'|]; [|reflexivity]. destruct (Wm k' eq_refl) as (k & -> & Hkk).
        specialize (Hk k eq_refl). cbn [may_have] in *. destruct (Z.eqb_spec k 0); [discriminate|]. destruct (Z.eqb_spec k' 0); [lia|reflexivity]. }
      assert (Ft : forall k, tmx = Some k -> 0 <= k).
      { intros k E. match goal with B : ~ bad_sizes tmn tmx 0 |- _ => pose proof (not_bad_fits _ _ _ B k E) end. lia. }
      assert (Fg : forall k, gmx = Some k -> 0 <= k).
      { intros k E. match goal with B : ~ bad_sizes gmn gmx 0 |- _ => pose proof (not_bad_fits _ _ _ B k E) end. lia. }
      assert (Mt := Mh _ _ _ _ Wt Ft). assert (Mg := Mh _ _ _ _ Wg Fg). clear Mh.
      assert (Wt' := proj1 Wt). assert (Wg' := proj1 Wg).
      destruct (b2z (may_have pmx) + b2z (may_have tmx) + b2z (may_have gmx) <? MIN_MIX_COMPONENTS_COUNT) eqn:E1; cbn [rbind] in H; [discriminate|].
      destruct (b2z (may_have pmx) + b2z (may_have tmx') + b2z (may_have gmx') <? MIN_MIX_COMPONENTS_COUNT); cbn [rbind] in H'; [discriminate|].
      injection H as _ <-. injection H' as _ <-. cbv zeta.
      assert (Wid : forall a b m m' k l, wider a m b m' -> l <= k -> wider (Z.max a k) m (Z.max b l) m').
      { intros a b m m' k l (V1 & V2) Hl. split; [lia|exact V2]. }
      assert (Wid2 : forall a b m m' k, wider a m b m' -> 0 <= k -> wider (Z.max (Z.max a 0) k) m (Z.max b 0) m').
      { intros a b m m' k (V1 & V2) Hl. split; [lia|exact V2]. }
      assert (Wid3 : forall a b m m', wider a m b m' -> wider (Z.max (Z.max a 0) 1) m (Z.max (Z.max b 0) 1) m').
      { intros a b m m' (V1 & V2). split; [lia|exact V2]. }
      assert (C12 : may_have pmx = true -> covered
        (to_mix_strategy ctx xs ys (Z.max (Z.max pmn 0) 1) pmx (Z.max (Z.max tmn 0) 1) tmx (Z.max gmn 0) gmx (Z.max mn 3) mx (Z.max hmn 0) hmx (Z.max smn 3) smx)
        (to_mix_strategy ctx xs' ys' (Z.max (Z.max pmn' 0) 1) pmx (Z.max (Z.max tmn' 0) 1) tmx' (Z.max gmn' 0) gmx' (Z.max mn' 3) mx' (Z.max hmn' 0) hmx' (Z.max smn' 3) smx')).
      { intros Hm. apply C; [lia|exact (Fp1 Hm)|apply Wid3, Wt|lia|apply wider_max, Wg|lia]. }
      assert (C13 : may_have pmx = true -> covered
        (to_mix_strategy ctx xs ys (Z.max (Z.max pmn 0) 1) pmx (Z.max tmn 0) tmx (Z.max (Z.max gmn 0) 1) gmx (Z.max mn 3) mx (Z.max hmn 0) hmx (Z.max smn 3) smx)
        (to_mix_strategy ctx xs' ys' (Z.max (Z.max pmn' 0) 1) pmx (Z.max tmn' 0) tmx' (Z.max (Z.max gmn' 0) 1) gmx' (Z.max mn' 3) mx' (Z.max hmn' 0) hmx' (Z.max smn' 3) smx')).
      { intros Hm. apply C; [lia|exact (Fp1 Hm)|apply wider_max, Wt|lia|apply Wid3, Wg|lia]. }
      assert (C23 : covered
        (to_mix_strategy ctx xs ys (Z.max pmn 0) pmx (Z.max (Z.max tmn 0) 1) tmx (Z.max (Z.max gmn 0) 1) gmx (Z.max mn 3) mx (Z.max hmn 0) hmx (Z.max smn 3) smx)
        (to_mix_strategy ctx xs' ys' (Z.max pmn' 0) pmx (Z.max (Z.max tmn' 0) 1) tmx' (Z.max (Z.max gmn' 0) 1) gmx' (Z.max mn' 3) mx' (Z.max hmn' 0) hmx' (Z.max smn' 3) smx')).
      { apply C; [lia|exact Fp|apply Wid3, Wt|lia|apply Wid3, Wg|lia]. }
      clear C Wid Wid2 Wid3.
      destruct (may_have pmx) eqn:Ep; [|exact C23]. specialize (C12 eq_refl). specialize (C13 eq_refl).
      destruct (may_have tmx) eqn:Et.
      - rewrite (Mt eq_refl). destruct (may_have gmx) eqn:Eg.
        + rewrite (Mg eq_refl). apply cov_alt; [apply cov_alt; assumption|assumption].
        + destruct (may_have gmx'); [apply cov_left, cov_left|]; exact C12.
      - destruct (may_have tmx') eqn:Et'; [|exact C13]. destruct (may_have gmx) eqn:Eg.
        + rewrite (Mg eq_refl). apply cov_left, cov_right. exact C13.
        + discriminate E1.
    Qed.
  End Poly.
End Api.

Lemma polygon_same_refl mn mx hmn hmx smn smx : polygon_same mn mx mn mx hmn hmx hmn hmx smn smx smn smx.
Proof. repeat split. Qed.
