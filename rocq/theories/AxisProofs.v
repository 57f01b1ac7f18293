(** Contours and polygons made of the points of one grid have no vertical or no horizontal edges. *)
From Verif Require Import Base Prog Geometry Ctx Utils Contracts Factories Strategies Planar Spec MixSpec AxisSpec WindSpec StarSpec PartSpec ProgProofs
  GeomProofs ListProofs GridProofs CarveProofs StarProofs MultiProofs PlanarProofs ApiProofs ContourProofs PartProofs GeometryApiProofs SequenceProofs StarGeneral.
Import List ListNotations.
Local Open Scope Z_scope.

Lemma sparse_incl l m : incl m l -> sparse_vertices l -> sparse_vertices m.
Proof.
  intros I (H & T & T'). split; [|split].
  - destruct H as [H|H]; [left|right]; intros u v Iu Iv; apply H; apply I; assumption.
  - intros u v w Iu Iv Iw. apply T; apply I; assumption.
  - intros u v w Iu Iv Iw. apply T'; apply I; assumption.
Qed.
Lemma nodup_map_inj (f : point -> Qc) l : NoDup (map f l) -> told_apart f l.
Proof.
  induction l as [|x l IH]; intros N u v Iu Iv E; [destruct Iu|]. cbn [map] in N. inversion N as [|? ? Nx Nl]; subst.
  destruct Iu as [<-|Iu], Iv as [<-|Iv]; [reflexivity| | |apply IH; assumption].
  - destruct Nx. rewrite E. apply in_map, Iv.
  - destruct Nx. rewrite <- E. apply in_map, Iu.
Qed.
Lemma grid_sparse_vertices xs ys mn mx l : generates (to_point_sequence_in_general_position_strategy xs ys mn mx) l -> sparse_vertices l.
Proof.
  intros H. apply grid_sound in H. split; [|apply (grid_twice _ _ _ _ _ H)].
  destruct (grid_once _ _ _ _ _ H) as [K|K]; [left|right]; apply nodup_map_inj, K.
Qed.

Lemma star_strategy_sparse ctx xs ys mn mx vs : generates (to_star_vertex_sequence_strategy ctx xs ys mn mx) vs -> sparse_vertices vs.
Proof.
  intros H. unfold to_star_vertex_sequence_strategy in H. apply gen_pfilter in H. destruct H as (H & _).
  apply gen_bind in H. destruct H as (points & Hp & H). apply gen_lift in H. pose proof (grid_sound _ _ _ _ _ Hp) as K.
  apply star_spec in H; [|apply (grid_nodup _ _ _ _ _ K)]. eapply sparse_incl; [apply H|eapply grid_sparse_vertices, Hp].
Qed.
Lemma carved_strategy_sparse ctx xs ys mn mx vs : generates (to_carved_vertex_sequence_strategy ctx xs ys mn mx) vs -> sparse_vertices vs.
Proof.
  intros H. unfold to_carved_vertex_sequence_strategy in H. apply gen_pfilter in H. destruct H as (H & _).
  apply gen_bind in H. destruct H as (points & Hp & H). apply gen_bind in H. destruct H as (size & _ & H). apply gen_lift in H.
  eapply sparse_incl; [intros q; apply (to_vertex_sequence_in _ _ _ _ q H)|eapply grid_sparse_vertices, Hp].
Qed.
Lemma sequences_sparse ctx xs ys mn mx vs : generates (to_vertex_sequences_ ctx xs ys mn mx) vs -> sparse_vertices vs.
Proof. intros H. apply gen_alt in H. destruct H as [H|H]; [eapply star_strategy_sparse|eapply carved_strategy_sparse]; exact H. Qed.
Lemma multicontour_strategy_sparse ctx xs ys mn mx cmn cmx mc : 1 <= cmn ->
  generates (to_multicontour_strategy ctx xs ys mn mx cmn cmx) mc -> sparse_vertices (concat mc).
Proof.
  intros Hc H. unfold to_multicontour_strategy in H. cbv zeta in H. apply gen_pfilter in H. destruct H as (H & _).
  apply gen_bind in H. destruct H as (pts & Hp & H). apply gen_bind in H. destruct H as (size & Hz & H).
  apply gen_bind in H. destruct H as (sizes & Hs & H). apply gen_bind in H. destruct H as (choices & _ & H). apply gen_lift in H.
  apply to_multicontour_spec in H; [|intros s Is; pose proof (to_sizes_ge _ _ _ _ Hs s Is); lia].
  eapply sparse_incl; [|eapply grid_sparse_vertices, Hp].
  intros q Hq. apply in_concat in Hq. destruct Hq as (vs & Hv & Hq). apply (proj1 (proj1 H vs Hv)), Hq.
Qed.
Lemma polygon_strategy_sparse ctx xs ys mn mx hmn hmx smn smx p : 1 <= smn ->
  generates (to_polygon_strategy ctx xs ys mn mx hmn hmx smn smx) p -> sparse_vertices (all_vertices p).
Proof.
  intros Hs H. unfold to_polygon_strategy in H. cbv zeta in H. apply gen_pfilter in H. destruct H as (H & _).
  apply gen_bind in H. destruct H as (pts & Hp & H). apply gen_pfilter in Hp. destruct Hp as (Hp & _). apply gen_bind in H. destruct H as (size & _ & H).
  apply gen_bind in H. destruct H as (sizes & Hz & H). apply gen_bind in H. destruct H as (choices & _ & H). apply gen_lift in H.
  apply to_polygon_spec in H; [|intros s Is; pose proof (to_hole_sizes_ge _ _ _ _ _ Hz s Is); lia].
  eapply sparse_incl; [|eapply grid_sparse_vertices, Hp]. destruct H as (Hb & _ & Hh & _).
  intros q Hq. unfold all_vertices in Hq. apply in_app_iff in Hq. destruct Hq as [Hq|Hq]; [apply Hb, Hq|].
  apply in_concat in Hq. destruct Hq as (vs & Hv & Hq). apply (proj1 (Hh vs Hv)), Hq.
Qed.

Lemma star_sparse ctx xs ys mn mx w s vs : star_contours ctx xs ys mn mx = Ok (w, s) -> generates s vs -> sparse_vertices vs.
Proof. intros H. unfold star_contours in H. validate; try discriminate. injection H as _ <-. apply star_strategy_sparse. Qed.
Lemma concave_sparse ctx xs ys mn mx w s vs : concave_contours ctx xs ys mn mx = Ok (w, s) -> generates s vs -> sparse_vertices vs.
Proof.
  intros H. unfold concave_contours in H. validate; try discriminate. injection H as _ <-. intros G.
  unfold to_concave_vertex_sequence_strategy in G. apply gen_pfilter_res in G. eapply sequences_sparse, G.
Qed.
Lemma contours_sparse ctx xs ys mn mx w s vs : contours ctx xs ys mn mx = Ok (w, s) -> generates s vs ->
  sparse_vertices vs \/ exists w' s', convex_contours ctx xs ys mn mx = Ok (w', s') /\ generates s' vs.
Proof.
  intros H G. assert (E : convex_contours ctx xs ys mn mx = Ok (w, to_convex_vertex_sequence_strategy ctx xs ys (Z.max mn 3) mx)).
  { unfold contours in H. unfold convex_contours. change CONVEX with MIN_CONTOUR_SIZE. destruct (validate_sizes mn mx MIN_CONTOUR_SIZE "min_size"); cbn [rbind] in *; [|discriminate].
    injection H as -> _. reflexivity. }
  unfold contours in H. validate; try discriminate. injection H as _ <-.
  unfold to_vertex_sequence_strategy in G. apply gen_alt in G. destruct G as [G|G]; [right|left; eapply sequences_sparse, G].
  do 2 eexists. split; [exact E|exact G].
Qed.
Lemma multicontours_sparse ctx xs ys mn mx cmn cmx w s mc : multicontours ctx xs ys mn mx cmn cmx = Ok (w, s) -> generates s mc -> sparse_vertices (concat mc).
Proof.
  intros H. unfold multicontours in H. validate; try discriminate. injection H as _ <-. apply multicontour_strategy_sparse.
  change MIN_CONTOUR_SIZE with 3. lia.
Qed.
Lemma polygons_sparse ctx xs ys mn mx hmn hmx smn smx w s p : polygons ctx xs ys mn mx hmn hmx smn smx = Ok (w, s) -> generates s p -> sparse_vertices (all_vertices p).
Proof.
  intros H. unfold polygons in H. validate; try discriminate. injection H as _ <-. apply polygon_strategy_sparse.
  change MIN_CONTOUR_SIZE with 3. lia.
Qed.
Lemma multipolygons_sparse ctx xs ys mn mx bmn bmx hmn hmx smn smx w s ps p : 0 <= hmn ->
  multipolygons ctx xs ys mn mx bmn bmx hmn hmx smn smx = Ok (w, s) -> generates s ps -> In p ps -> sparse_vertices (all_vertices p).
Proof.
  intros Hh H G Ip. destruct (multipolygons_parts _ _ _ _ _ _ _ _ _ _ _ _ _ _ Hh H G) as [(w' & s' & E & K)|(_ & w' & s' & mc & E & K & ->)].
  - eapply polygons_sparse; [exact E|apply K, Ip].
  - apply in_map_iff in Ip. destruct Ip as (c & <- & Ic). eapply sparse_incl; [|eapply multicontours_sparse; eassumption].
    intros q Hq. unfold all_vertices in Hq. cbn [border holes concat] in Hq. rewrite app_nil_r in Hq. apply in_concat. exists c. auto.
Qed.
Lemma mixes_sparse ctx xs ys pmn pmx gmn gmx qmn qmx mn mx hmn hmx smn smx w s m p :
  mixes ctx xs ys pmn pmx gmn gmx qmn qmx mn mx hmn hmx smn smx = Ok (w, s) -> generates s m -> In p (elements (shaped m)) -> sparse_vertices (all_vertices p).
Proof.
  intros H G Ip. destruct (mixes_polygons_alone _ _ _ _ _ _ _ _ _ _ _ _ _ _ _ _ _ _ H G) as (w' & s' & E & K).
  eapply polygons_sparse; [exact E|apply K, Ip].
Qed.
(** Hence no rectangles with sides parallel to the axes. *)
Lemma sparse_no_corner l a b c : sparse_vertices l -> In a l -> In b l -> In c l -> a <> b -> b <> c -> px a = px b -> py b = py c -> False.
Proof. intros ([H|H] & _) Ia Ib Ic N N' E E'; [apply N, H; assumption|apply N', H; assumption]. Qed.
Definition rectangle (x1 x2 y1 y2 : Qc) : list point := [Pt x1 y1; Pt x2 y1; Pt x2 y2; Pt x1 y2].
Lemma sparse_no_rectangle l x1 x2 y1 y2 : sparse_vertices l -> x1 <> x2 -> y1 <> y2 -> ~ incl (rectangle x1 x2 y1 y2) l.
Proof.
  intros S Nx Ny I. apply (sparse_no_corner l (Pt x2 y2) (Pt x2 y1) (Pt x1 y1) S); [apply I; cbn; auto..| | |reflexivity|reflexivity].
  - intros E. injection E as E. congruence.
  - intros E. injection E as E. congruence.
Qed.
