(** The number of vertices is bounded by the number of coordinates. *)
From Verif Require Import Base Prog Geometry Ctx Utils Contracts Factories Strategies Planar Spec MixSpec AxisSpec VertexCountSpec WindSpec StarSpec PartSpec ProgProofs
  GeomProofs ListProofs PrimeProofs GridProofs CarveProofs StarProofs MultiProofs PlanarProofs ApiProofs ContourProofs PartProofs GeometryApiProofs SequenceProofs StarGeneral SimpleProofs ConvexProofs RelaxSpec CapProofs.
From Coq Require Import Znumtheory.
Import List ListNotations.
Local Open Scope Z_scope.

Definition gridded (xs : scalars) (ys : option scalars) (l : list point) : Prop :=
  exists mn mx pts, generates (to_point_sequence_in_general_position_strategy xs ys mn mx) pts /\ incl l pts.
Lemma gridded_incl xs ys l m : incl m l -> gridded xs ys l -> gridded xs ys m.
Proof. intros I (mn & mx & pts & H & K). exists mn, mx, pts. split; [exact H|]. eapply incl_tran; eassumption. Qed.
Lemma grid_gridded xs ys mn mx l : generates (to_point_sequence_in_general_position_strategy xs ys mn mx) l -> gridded xs ys l.
Proof. intros H. exists mn, mx, l. split; [exact H|apply incl_refl]. Qed.
Lemma gridded_few xs ys l c : only_coordinates xs ys c -> gridded xs ys l -> few_points (lenZ c) l.
Proof.
  intros O (mn & mx & pts & H & I). apply grid_sound in H.
  destruct H as [_ (lower & E & Hl) _ (n & xl & yl & En & Nx & Ny & Dx & Dy & (Pp & Pn & _) & _) Nd _ _ _].
  apply to_next_prime_ge in E. destruct E as (_ & _ & L5 & _). exists (lenZ pts). split; [exact Pp|]. split.
  - split; [lia|]. assert (K : lenZ xl <= lenZ c \/ lenZ yl <= lenZ c); [|lia].
    unfold lenZ. destruct O as [O|O]; [left|right]; apply inj_le; (apply NoDup_incl_length; [assumption|]); intros q Hq; apply O; auto.
  - intros m Nm Im. unfold lenZ. apply inj_le. apply NoDup_incl_length; [exact Nm|]. eapply incl_tran; eassumption.
Qed.

Lemma star_strategy_gridded ctx xs ys mn mx vs : generates (to_star_vertex_sequence_strategy ctx xs ys mn mx) vs -> gridded xs ys vs.
Proof.
  intros H. unfold to_star_vertex_sequence_strategy in H. apply gen_pfilter in H. destruct H as (H & _).
  apply gen_bind in H. destruct H as (points & Hp & H). apply gen_lift in H. pose proof (grid_sound _ _ _ _ _ Hp) as K.
  apply star_spec in H; [|apply (grid_nodup _ _ _ _ _ K)]. eapply gridded_incl; [apply H|eapply grid_gridded, Hp].
Qed.
Lemma carved_strategy_gridded ctx xs ys mn mx vs : generates (to_carved_vertex_sequence_strategy ctx xs ys mn mx) vs -> gridded xs ys vs.
Proof.
  intros H. unfold to_carved_vertex_sequence_strategy in H. apply gen_pfilter in H. destruct H as (H & _).
  apply gen_bind in H. destruct H as (points & Hp & H). apply gen_bind in H. destruct H as (size & _ & H). apply gen_lift in H.
  eapply gridded_incl; [intros q; apply (to_vertex_sequence_in _ _ _ _ q H)|eapply grid_gridded, Hp].
Qed.
Lemma sequences_gridded ctx xs ys mn mx vs : generates (to_vertex_sequences_ ctx xs ys mn mx) vs -> gridded xs ys vs.
Proof. intros H. apply gen_alt in H. destruct H as [H|H]; [eapply star_strategy_gridded|eapply carved_strategy_gridded]; exact H. Qed.
Lemma multicontour_strategy_gridded ctx xs ys mn mx cmn cmx mc : 1 <= cmn ->
  generates (to_multicontour_strategy ctx xs ys mn mx cmn cmx) mc -> gridded xs ys (concat mc).
Proof.
  intros Hc H. unfold to_multicontour_strategy in H. cbv zeta in H. apply gen_pfilter in H. destruct H as (H & _).
  apply gen_bind in H. destruct H as (pts & Hp & H). apply gen_bind in H. destruct H as (size & Hz & H).
  apply gen_bind in H. destruct H as (sizes & Hs & H). apply gen_bind in H. destruct H as (choices & _ & H). apply gen_lift in H.
  apply to_multicontour_spec in H; [|intros s Is; pose proof (to_sizes_ge _ _ _ _ Hs s Is); lia].
  eapply gridded_incl; [|eapply grid_gridded, Hp].
  intros q Hq. apply in_concat in Hq. destruct Hq as (vs & Hv & Hq). apply (proj1 (proj1 H vs Hv)), Hq.
Qed.
Lemma polygon_strategy_gridded ctx xs ys mn mx hmn hmx smn smx p : 1 <= smn ->
  generates (to_polygon_strategy ctx xs ys mn mx hmn hmx smn smx) p -> gridded xs ys (all_vertices p).
Proof.
  intros Hs H. unfold to_polygon_strategy in H. cbv zeta in H. apply gen_pfilter in H. destruct H as (H & _).
  apply gen_bind in H. destruct H as (pts & Hp & H). apply gen_pfilter in Hp. destruct Hp as (Hp & _). apply gen_bind in H. destruct H as (size & _ & H).
  apply gen_bind in H. destruct H as (sizes & Hz & H). apply gen_bind in H. destruct H as (choices & _ & H). apply gen_lift in H.
  apply to_polygon_spec in H; [|intros s Is; pose proof (to_hole_sizes_ge _ _ _ _ _ Hz s Is); lia].
  eapply gridded_incl; [|eapply grid_gridded, Hp]. destruct H as (Hb & _ & Hh & _).
  intros q Hq. unfold all_vertices in Hq. apply in_app_iff in Hq. destruct Hq as [Hq|Hq]; [apply Hb, Hq|].
  apply in_concat in Hq. destruct Hq as (vs & Hv & Hq). apply (proj1 (Hh vs Hv)), Hq.
Qed.

Lemma star_gridded ctx xs ys mn mx w s vs : star_contours ctx xs ys mn mx = Ok (w, s) -> generates s vs -> gridded xs ys vs.
Proof. intros H. unfold star_contours in H. validate; try discriminate. injection H as _ <-. apply star_strategy_gridded. Qed.
Lemma concave_gridded ctx xs ys mn mx w s vs : concave_contours ctx xs ys mn mx = Ok (w, s) -> generates s vs -> gridded xs ys vs.
Proof.
  intros H. unfold concave_contours in H. validate; try discriminate. injection H as _ <-. intros G.
  unfold to_concave_vertex_sequence_strategy in G. apply gen_pfilter_res in G. eapply sequences_gridded, G.
Qed.
Lemma contours_gridded ctx xs ys mn mx w s vs : contours ctx xs ys mn mx = Ok (w, s) -> generates s vs ->
  gridded xs ys vs \/ exists w' s', convex_contours ctx xs ys mn mx = Ok (w', s') /\ generates s' vs.
Proof.
  intros H G. assert (E : convex_contours ctx xs ys mn mx = Ok (w, to_convex_vertex_sequence_strategy ctx xs ys (Z.max mn 3) mx)).
  { unfold contours in H. unfold convex_contours. change CONVEX with MIN_CONTOUR_SIZE. destruct (validate_sizes mn mx MIN_CONTOUR_SIZE "min_size"); cbn [rbind] in *; [|discriminate].
    injection H as -> _. reflexivity. }
  unfold contours in H. validate; try discriminate. injection H as _ <-.
  unfold to_vertex_sequence_strategy in G. apply gen_alt in G. destruct G as [G|G]; [right|left; eapply sequences_gridded, G].
  do 2 eexists. split; [exact E|exact G].
Qed.
Lemma multicontours_gridded ctx xs ys mn mx cmn cmx w s mc : multicontours ctx xs ys mn mx cmn cmx = Ok (w, s) -> generates s mc -> gridded xs ys (concat mc).
Proof.
  intros H. unfold multicontours in H. validate; try discriminate. injection H as _ <-. apply multicontour_strategy_gridded.
  change MIN_CONTOUR_SIZE with 3. lia.
Qed.
Lemma polygons_gridded ctx xs ys mn mx hmn hmx smn smx w s p : polygons ctx xs ys mn mx hmn hmx smn smx = Ok (w, s) -> generates s p -> gridded xs ys (all_vertices p).
Proof.
  intros H. unfold polygons in H. validate; try discriminate. injection H as _ <-. apply polygon_strategy_gridded.
  change MIN_CONTOUR_SIZE with 3. lia.
Qed.
Lemma multipolygons_gridded ctx xs ys mn mx bmn bmx hmn hmx smn smx w s ps p : 0 <= hmn ->
  multipolygons ctx xs ys mn mx bmn bmx hmn hmx smn smx = Ok (w, s) -> generates s ps -> In p ps -> gridded xs ys (all_vertices p).
Proof.
  intros Hh H G Ip. destruct (multipolygons_parts _ _ _ _ _ _ _ _ _ _ _ _ _ _ Hh H G) as [(w' & s' & E & K)|(_ & w' & s' & mc & E & K & ->)].
  - eapply polygons_gridded; [exact E|apply K, Ip].
  - apply in_map_iff in Ip. destruct Ip as (c & <- & Ic). eapply gridded_incl; [|eapply multicontours_gridded; eassumption].
    intros q Hq. unfold all_vertices in Hq. cbn [border holes concat] in Hq. rewrite app_nil_r in Hq. apply in_concat. exists c. auto.
Qed.
Lemma mixes_gridded ctx xs ys pmn pmx gmn gmx qmn qmx mn mx hmn hmx smn smx w s m p :
  mixes ctx xs ys pmn pmx gmn gmx qmn qmx mn mx hmn hmx smn smx = Ok (w, s) -> generates s m -> In p (elements (shaped m)) -> gridded xs ys (all_vertices p).
Proof.
  intros H G Ip. destruct (mixes_polygons_alone _ _ _ _ _ _ _ _ _ _ _ _ _ _ _ _ _ _ H G) as (w' & s' & E & K).
  eapply polygons_gridded; [exact E|apply K, Ip].
Qed.
Lemma contours_few ctx xs ys c mn mx w s vs : only_coordinates xs ys c -> contours ctx xs ys mn mx = Ok (w, s) -> generates s vs ->
  few_points (lenZ c) vs \/ exists w' s', convex_contours ctx xs ys mn mx = Ok (w', s') /\ generates s' vs.
Proof.
  intros O H G. destruct (contours_gridded _ _ _ _ _ _ _ _ H G) as [K|K]; [left|right; exact K]. eapply gridded_few; eassumption.
Qed.
Lemma polygons_four ctx xs ys c mn mx hmn hmx smn smx w s p : only_coordinates xs ys c -> lenZ c <= 4 ->
  polygons ctx xs ys mn mx hmn hmx smn smx = Ok (w, s) -> ~ generates s p.
Proof.
  intros O L H G. destruct (gridded_few _ _ _ c O (polygons_gridded _ _ _ _ _ _ _ _ _ _ _ _ H G)) as (r & _ & R & _). lia.
Qed.

(** ** Convex contours. *)
Lemma convex_strategy_few ctx xs ys c mn mx vs : (forall l, is_hull l (ctx_hull ctx l)) -> only_coordinates xs ys c ->
  generates (to_convex_vertex_sequence_strategy ctx xs ys mn mx) vs -> lenZ vs <= 4 \/ few_points (lenZ c) vs.
Proof.
  intros Hh O H. unfold to_convex_vertex_sequence_strategy in H. cbv zeta in H.
  assert (T : generates (to_triangular_vertex_sequence_strategy xs ys) vs -> lenZ vs <= 4).
  { intros G. apply gen_triangle in G. destruct G as (a & b & d & -> & _). cbn. lia. }
  assert (R : generates (to_rectangular_vertex_sequence_strategy xs ys) vs -> lenZ vs <= 4).
  { intros G. apply gen_rectangle in G. destruct G as (x0 & x1 & y0 & y1 & -> & _). cbn. lia. }
  assert (V : forall b, generates (pfilter (fun vs => has_valid_size vs mn mx)
      (let! points := to_point_sequence_in_general_position_strategy xs ys mn mx in
       let! bits_x := bits (length points - 2) in
       let! bits_y := bits (length points - 2) in
       let! perm := permutations (seq 0 (length points)) in
       lift (to_convex_vertex_sequence ctx points bits_x bits_y (shuffle_by perm)))) b -> few_points (lenZ c) b).
  { intros b G. apply gen_pfilter in G. destruct G as (G & _). apply gen_bind in G. destruct G as (points & Hp & G).
    apply gen_bind in G. destruct G as (bx & _ & G). apply gen_bind in G. destruct G as (b_y & _ & G). apply gen_bind in G. destruct G as (perm & _ & G).
    apply gen_lift in G. apply (convex_sequence_cap _ _ _ _ _ _ Hh) in G.
    pose proof (grid_sound _ _ _ _ _ Hp) as Gs. pose proof (grid_nodup _ _ _ _ _ Gs) as Nd.
    destruct (gridded_few _ _ _ c O (grid_gridded _ _ _ _ _ Hp)) as (r & Pr & Hr & Hm). exists r. split; [exact Pr|]. split; [exact Hr|].
    intros m Nm Im. specialize (Hm points Nd (incl_refl _)). pose proof (NoDup_incl_length Nm Im). unfold lenZ in *. lia. }
  destruct (match mx with None => false | Some m => m <? CONCAVE end); [left; apply T, H|].
  destruct (mn =? 3).
  - apply gen_alt in H. destruct H as [H|H]; [left; apply T, H|].
    destruct (mn <=? 4); [|right; apply V, H]. apply gen_alt in H. destruct H as [H|H]; [left; apply R, H|right; apply V, H].
  - destruct (mn <=? 4); [|right; apply V, H]. apply gen_alt in H. destruct H as [H|H]; [left; apply R, H|right; apply V, H].
Qed.
Lemma convex_few ctx xs ys c mn mx w s vs : (forall l, is_hull l (ctx_hull ctx l)) -> only_coordinates xs ys c ->
  convex_contours ctx xs ys mn mx = Ok (w, s) -> generates s vs -> lenZ vs <= 4 \/ few_points (lenZ c) vs.
Proof. intros Hh O H. unfold convex_contours in H. validate; try discriminate. injection H as _ <-. apply convex_strategy_few; assumption. Qed.
Lemma contours_fewer ctx xs ys c mn mx w s vs : (forall l, is_hull l (ctx_hull ctx l)) -> only_coordinates xs ys c ->
  contours ctx xs ys mn mx = Ok (w, s) -> generates s vs -> lenZ vs <= 4 \/ few_points (lenZ c) vs.
Proof.
  intros Hh O H G. destruct (contours_few _ _ _ _ _ _ _ _ _ O H G) as [K|(w' & s' & H' & G')]; [right; exact K|]. eapply convex_few; eassumption.
Qed.
