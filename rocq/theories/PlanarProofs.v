(** Proofs about the argument handling of the public API. *)
From Verif Require Import Base Prog Geometry Ctx Utils Contracts Factories Strategies Planar Spec ProgProofs GeomProofs.

Lemma bad_sizes_dec mn mx l : {bad_sizes mn mx l} + {~ bad_sizes mn mx l}.
Proof.
  unfold bad_sizes. destruct mx as [m|].
  - destruct (Z_lt_dec m l); [left; exists m; auto|].
    destruct (Z_lt_dec m mn); [left; exists m; auto|].
    destruct (Z_lt_dec mn 0); [left; exists m; auto|].
    right. intros (m' & E & H). injection E as <-. lia.
  - right. intros (m' & E & _). discriminate.
Qed.
Lemma validate_bad mn mx l n : bad_sizes mn mx l -> validate_sizes mn mx l n = Raise ValueError.
Proof.
  intros (m & -> & H). unfold validate_sizes.
  destruct (Z.ltb_spec m l); [reflexivity|]. destruct (Z.ltb_spec m mn); [reflexivity|].
  destruct (Z.ltb_spec mn 0); [reflexivity|]. lia.
Qed.
Lemma validate_good mn mx l n : ~ bad_sizes mn mx l ->
  validate_sizes mn mx l n = Ok (if (mn <? l)%Z then [n] else []).
Proof.
  intros H. unfold validate_sizes. destruct mx as [m|]; [|reflexivity].
  destruct (Z.ltb_spec m l); [exfalso; apply H; exists m; auto|].
  destruct (Z.ltb_spec m mn); [exfalso; apply H; exists m; auto|].
  destruct (Z.ltb_spec mn 0); [exfalso; apply H; exists m; auto|]. reflexivity.
Qed.

Ltac validate :=
  repeat match goal with
  | |- context [validate_sizes ?a ?b ?c ?d] =>
      destruct (bad_sizes_dec a b c) as [?|?];
      [rewrite (validate_bad a b c d) by assumption | rewrite (validate_good a b c d) by assumption];
      cbn [rbind]
  | H : context [validate_sizes ?a ?b ?c ?d] |- _ =>
      destruct (bad_sizes_dec a b c) as [?|?];
      [rewrite (validate_bad a b c d) in H by assumption | rewrite (validate_good a b c d) in H by assumption];
      cbn [rbind] in H
  end.
Ltac validate_hyp :=
  repeat match goal with
  | H : context [validate_sizes ?a ?b ?c ?d] |- _ =>
      destruct (bad_sizes_dec a b c) as [?|?];
      [rewrite (validate_bad a b c d) in H by assumption | rewrite (validate_good a b c d) in H by assumption];
      cbn [rbind] in H
  end.
Ltac raise_iff :=
  intros; validate; (split;
    [intros H; first [discriminate | injection H as <-; split; [reflexivity|tauto]]
    |intros (-> & H); first [reflexivity | exfalso; tauto]]).

Lemma b2z_kinds (a b c : option Z) :
  (b2z (may_have a) + b2z (may_have b) + b2z (may_have c) <? MIN_MIX_COMPONENTS_COUNT)%Z = true <->
  (a = Some 0 /\ b = Some 0 \/ a = Some 0 /\ c = Some 0 \/ b = Some 0 /\ c = Some 0)%Z.
Proof.
  assert (E : forall o, may_have o = false <-> o = Some 0%Z).
  { intros [m|]; cbn; [|split; discriminate]. destruct (Z.eqb_spec m 0); cbn; split; intros; congruence. }
  rewrite <- !E. unfold MIN_MIX_COMPONENTS_COUNT.
  destruct (may_have a), (may_have b), (may_have c); cbn; intuition congruence.
Qed.

Section API.
Context (ctx : context) (xs : scalars) (ys : option scalars).

Lemma multipoints_raise mn mx e :
  multipoints xs ys mn mx = Raise e <-> e = ValueError /\ bad_sizes mn mx 1.
Proof. unfold multipoints, MIN_MULTIPOINT_SIZE. raise_iff. Qed.
Lemma multisegments_raise mn mx e :
  multisegments ctx xs ys mn mx = Raise e <-> e = ValueError /\ bad_sizes mn mx 2.
Proof. unfold multisegments, MIN_MULTISEGMENT_SIZE. raise_iff. Qed.
Lemma contours_raise mn mx e :
  contours ctx xs ys mn mx = Raise e <-> e = ValueError /\ bad_sizes mn mx 3.
Proof. unfold contours. change MIN_CONTOUR_SIZE with 3%Z. raise_iff. Qed.
Lemma convex_contours_raise mn mx e :
  convex_contours ctx xs ys mn mx = Raise e <-> e = ValueError /\ bad_sizes mn mx 3.
Proof. unfold convex_contours. change CONVEX with 3%Z. raise_iff. Qed.
Lemma concave_contours_raise mn mx e :
  concave_contours ctx xs ys mn mx = Raise e <-> e = ValueError /\ bad_sizes mn mx 4.
Proof. unfold concave_contours. change CONCAVE with 4%Z. raise_iff. Qed.
Lemma star_contours_raise mn mx e :
  star_contours ctx xs ys mn mx = Raise e <-> e = ValueError /\ bad_sizes mn mx 3.
Proof. unfold star_contours. change MIN_CONTOUR_SIZE with 3%Z. raise_iff. Qed.
Lemma multicontours_raise mn mx cmn cmx e :
  multicontours ctx xs ys mn mx cmn cmx = Raise e <->
  e = ValueError /\ (bad_sizes mn mx 2 \/ bad_sizes cmn cmx 3).
Proof.
  unfold multicontours. change MIN_CONTOUR_SIZE with 3%Z. change MIN_MULTICONTOUR_SIZE with 2%Z. raise_iff.
Qed.
Lemma polygons_raise mn mx hmn hmx smn smx e :
  polygons ctx xs ys mn mx hmn hmx smn smx = Raise e <->
  e = ValueError /\ (bad_sizes mn mx 3 \/ bad_sizes hmn hmx 0 \/ bad_sizes smn smx 3).
Proof. unfold polygons. change MIN_CONTOUR_SIZE with 3%Z. raise_iff. Qed.
Lemma multipolygons_raise mn mx bmn bmx hmn hmx smn smx e :
  multipolygons ctx xs ys mn mx bmn bmx hmn hmx smn smx = Raise e <->
  e = ValueError /\
  (bad_sizes mn mx 2 \/ bad_sizes bmn bmx 3 \/ bad_sizes hmn hmx 0 \/ bad_sizes smn smx 3).
Proof.
  unfold multipolygons. change MIN_CONTOUR_SIZE with 3%Z. change MIN_MULTIPOLYGON_SIZE with 2%Z. raise_iff.
Qed.
Lemma mixes_raise pmn pmx smn smx gmn gmx bmn bmx hmn hmx zmn zmx e :
  mixes ctx xs ys pmn pmx smn smx gmn gmx bmn bmx hmn hmx zmn zmx = Raise e <->
  e = ValueError /\
  ((bad_sizes pmn pmx 0 \/ bad_sizes smn smx 0 \/ bad_sizes gmn gmx 0 \/ bad_sizes bmn bmx 3
    \/ bad_sizes hmn hmx 0 \/ bad_sizes zmn zmx 3)
   \/ (pmx = Some 0 /\ smx = Some 0 \/ pmx = Some 0 /\ gmx = Some 0 \/ smx = Some 0 /\ gmx = Some 0)%Z).
Proof.
  unfold mixes. change MIN_CONTOUR_SIZE with 3%Z. rewrite <- b2z_kinds.
  validate.
  7:{ destruct (b2z (may_have pmx) + b2z (may_have smx) + b2z (may_have gmx) <? MIN_MIX_COMPONENTS_COUNT)%Z eqn:E;
      cbn [rbind]; (split;
        [intros H; first [discriminate | injection H as <-; split; [reflexivity|tauto]]
        |intros (-> & H); first [reflexivity | exfalso; intuition congruence]]). }
  all: split; [intros H; injection H as <-; split; [reflexivity|tauto] | intros (-> & _); reflexivity].
Qed.



Lemma mixes_two_kinds pmn pmx smn smx gmn gmx bmn bmx hmn hmx zmn zmx :
  (pmx = Some 0 /\ smx = Some 0 \/ pmx = Some 0 /\ gmx = Some 0 \/ smx = Some 0 /\ gmx = Some 0)%Z ->
  mixes ctx xs ys pmn pmx smn smx gmn gmx bmn bmx hmn hmx zmn zmx = Raise ValueError.
Proof. intros H. apply mixes_raise. auto. Qed.

(** Warnings. *)
Lemma warned_filter (args : list (string * Z * Z)) (w : list string) :
  NoDup (map (fun a => fst (fst a)) args) ->
  w = map (fun a => fst (fst a)) (filter (fun a => snd (fst a) <? snd a)%Z args) ->
  warned_exactly w args.
Proof.
  intros Hd ->. split.
  - induction args as [|a args IH]; cbn; [constructor|]. inversion Hd as [|x l Hn Hd']; subst.
    destruct (snd (fst a) <? snd a)%Z; [|apply IH; assumption]. cbn. constructor; [|apply IH; assumption].
    intros Hin. apply Hn. apply in_map_iff in Hin. destruct Hin as (b & <- & Hb).
    apply filter_In in Hb. apply in_map_iff. exists b. tauto.
  - intros n. rewrite in_map_iff. setoid_rewrite filter_In. split.
    + intros (((n' & mn) & l) & <- & Hin & Hlt). cbn in *. apply Z.ltb_lt in Hlt. eauto.
    + intros (mn & l & Hin & Hlt). exists (n, mn, l). cbn. apply Z.ltb_lt in Hlt. auto.
Qed.
Ltac warn :=
  intros Hok; validate; try discriminate; injection Hok as <- _; apply warned_filter;
  [cbn; repeat (constructor; [cbn; intuition discriminate|]); constructor
  |cbn; repeat match goal with |- context [(?a <? ?b)%Z] => destruct (a <? b)%Z end; reflexivity].

Lemma multipoints_warn mn mx w s : multipoints xs ys mn mx = Ok (w, s) ->
  warned_exactly w [("min_size"%string, mn, 1%Z)].
Proof. unfold multipoints. change MIN_MULTIPOINT_SIZE with 1%Z. warn. Qed.
Lemma multisegments_warn mn mx w s : multisegments ctx xs ys mn mx = Ok (w, s) ->
  warned_exactly w [("min_size"%string, mn, 2%Z)].
Proof. unfold multisegments. change MIN_MULTISEGMENT_SIZE with 2%Z. warn. Qed.
Lemma contours_warn mn mx w s : contours ctx xs ys mn mx = Ok (w, s) ->
  warned_exactly w [("min_size"%string, mn, 3%Z)].
Proof. unfold contours. change MIN_CONTOUR_SIZE with 3%Z. warn. Qed.
Lemma convex_contours_warn mn mx w s : convex_contours ctx xs ys mn mx = Ok (w, s) ->
  warned_exactly w [("min_size"%string, mn, 3%Z)].
Proof. unfold convex_contours. change CONVEX with 3%Z. warn. Qed.
Lemma concave_contours_warn mn mx w s : concave_contours ctx xs ys mn mx = Ok (w, s) ->
  warned_exactly w [("min_size"%string, mn, 4%Z)].
Proof. unfold concave_contours. change CONCAVE with 4%Z. warn. Qed.
Lemma star_contours_warn mn mx w s : star_contours ctx xs ys mn mx = Ok (w, s) ->
  warned_exactly w [("min_size"%string, mn, 3%Z)].
Proof. unfold star_contours. change MIN_CONTOUR_SIZE with 3%Z. warn. Qed.
Lemma multicontours_warn mn mx cmn cmx w s : multicontours ctx xs ys mn mx cmn cmx = Ok (w, s) ->
  warned_exactly w [("min_size"%string, mn, 2%Z); ("min_contour_size"%string, cmn, 3%Z)].
Proof.
  unfold multicontours. change MIN_CONTOUR_SIZE with 3%Z. change MIN_MULTICONTOUR_SIZE with 2%Z. warn.
Qed.
Lemma polygons_warn mn mx hmn hmx smn smx w s :
  polygons ctx xs ys mn mx hmn hmx smn smx = Ok (w, s) ->
  warned_exactly w [("min_size"%string, mn, 3%Z); ("min_holes_size"%string, hmn, 0%Z);
                    ("min_hole_size"%string, smn, 3%Z)].
Proof. unfold polygons. change MIN_CONTOUR_SIZE with 3%Z. warn. Qed.
Lemma multipolygons_warn mn mx bmn bmx hmn hmx smn smx w s :
  multipolygons ctx xs ys mn mx bmn bmx hmn hmx smn smx = Ok (w, s) ->
  warned_exactly w [("min_size"%string, mn, 2%Z); ("min_border_size"%string, bmn, 3%Z);
                    ("min_holes_size"%string, hmn, 0%Z); ("min_hole_size"%string, smn, 3%Z)].
Proof.
  unfold multipolygons. change MIN_CONTOUR_SIZE with 3%Z. change MIN_MULTIPOLYGON_SIZE with 2%Z. warn.
Qed.
Lemma mixes_warn pmn pmx smn smx gmn gmx bmn bmx hmn hmx zmn zmx w s :
  mixes ctx xs ys pmn pmx smn smx gmn gmx bmn bmx hmn hmx zmn zmx = Ok (w, s) ->
  warned_exactly w [("min_points_size"%string, pmn, 0%Z); ("min_segments_size"%string, smn, 0%Z);
                    ("min_polygons_size"%string, gmn, 0%Z);
                    ("min_polygon_border_size"%string, bmn, 3%Z);
                    ("min_polygon_holes_size"%string, hmn, 0%Z);
                    ("min_polygon_hole_size"%string, zmn, 3%Z)].
Proof.
  unfold mixes. change MIN_CONTOUR_SIZE with 3%Z. intros Hok; validate; try discriminate.
  destruct (b2z (may_have pmx) + b2z (may_have smx) + b2z (may_have gmx) <? MIN_MIX_COMPONENTS_COUNT)%Z;
    cbn [rbind] in Hok; [discriminate|]. injection Hok as <- _. apply warned_filter.
  - cbn; repeat (constructor; [cbn; intuition discriminate|]); constructor.
  - cbn [filter fst snd map app].
    repeat match goal with |- context [(?a <? ?b)%Z] => destruct (a <? b)%Z end; reflexivity.
Qed.

(** Clamping. *)
Lemma not_bad_clamp mn mx l : (0 <= l)%Z -> ~ bad_sizes mn mx l -> ~ bad_sizes (Z.max mn l) mx l.
Proof. intros H0 H (m & E & Hm). apply H. exists m. split; [exact E|]. lia. Qed.
Lemma validate_clamp mn mx l n : (0 <= l)%Z -> ~ bad_sizes mn mx l ->
  validate_sizes (Z.max mn l) mx l n = Ok [].
Proof.
  intros H0 H. rewrite validate_good by (apply not_bad_clamp; assumption).
  destruct (Z.ltb_spec (Z.max mn l) l); [lia|reflexivity].
Qed.
Ltac clamp :=
  intros Hok; validate_hyp; try discriminate; injection Hok as _ <-;
  repeat rewrite validate_clamp by (assumption || lia); cbn [rbind app];
  rewrite <- ?Z.max_assoc, ?Z.max_id; reflexivity.

Lemma multipoints_clamp mn mx w s : multipoints xs ys mn mx = Ok (w, s) ->
  multipoints xs ys (Z.max mn 1) mx = Ok ([], s).
Proof. unfold multipoints. change MIN_MULTIPOINT_SIZE with 1%Z. clamp. Qed.
Lemma multisegments_clamp mn mx w s : multisegments ctx xs ys mn mx = Ok (w, s) ->
  multisegments ctx xs ys (Z.max mn 2) mx = Ok ([], s).
Proof. unfold multisegments. change MIN_MULTISEGMENT_SIZE with 2%Z. clamp. Qed.
Lemma contours_clamp mn mx w s : contours ctx xs ys mn mx = Ok (w, s) ->
  contours ctx xs ys (Z.max mn 3) mx = Ok ([], s).
Proof. unfold contours. change MIN_CONTOUR_SIZE with 3%Z. clamp. Qed.
Lemma convex_contours_clamp mn mx w s : convex_contours ctx xs ys mn mx = Ok (w, s) ->
  convex_contours ctx xs ys (Z.max mn 3) mx = Ok ([], s).
Proof. unfold convex_contours. change CONVEX with 3%Z. clamp. Qed.
Lemma concave_contours_clamp mn mx w s : concave_contours ctx xs ys mn mx = Ok (w, s) ->
  concave_contours ctx xs ys (Z.max mn 4) mx = Ok ([], s).
Proof. unfold concave_contours. change CONCAVE with 4%Z. clamp. Qed.
Lemma star_contours_clamp mn mx w s : star_contours ctx xs ys mn mx = Ok (w, s) ->
  star_contours ctx xs ys (Z.max mn 3) mx = Ok ([], s).
Proof. unfold star_contours. change MIN_CONTOUR_SIZE with 3%Z. clamp. Qed.
Lemma multicontours_clamp mn mx cmn cmx w s : multicontours ctx xs ys mn mx cmn cmx = Ok (w, s) ->
  multicontours ctx xs ys (Z.max mn 2) mx (Z.max cmn 3) cmx = Ok ([], s).
Proof.
  unfold multicontours. change MIN_CONTOUR_SIZE with 3%Z. change MIN_MULTICONTOUR_SIZE with 2%Z. clamp.
Qed.
Lemma polygons_clamp mn mx hmn hmx smn smx w s :
  polygons ctx xs ys mn mx hmn hmx smn smx = Ok (w, s) ->
  polygons ctx xs ys (Z.max mn 3) mx (Z.max hmn 0) hmx (Z.max smn 3) smx = Ok ([], s).
Proof. unfold polygons. change MIN_CONTOUR_SIZE with 3%Z. clamp. Qed.
Lemma multipolygons_clamp mn mx bmn bmx hmn hmx smn smx w s : (0 <= hmn)%Z ->
  multipolygons ctx xs ys mn mx bmn bmx hmn hmx smn smx = Ok (w, s) ->
  multipolygons ctx xs ys (Z.max mn 2) mx (Z.max bmn 3) bmx (Z.max hmn 0) hmx (Z.max smn 3) smx
  = Ok ([], s).
Proof.
  intros Hh. unfold multipolygons. change MIN_CONTOUR_SIZE with 3%Z. change MIN_MULTIPOLYGON_SIZE with 2%Z.
  intros Hok; validate_hyp; try discriminate; injection Hok as _ <-;
  repeat rewrite validate_clamp by (assumption || lia); cbn [rbind app].
  rewrite <- ?Z.max_assoc, ?Z.max_id. rewrite (Z.max_l hmn 0) by lia. reflexivity.
Qed.
Lemma mixes_clamp pmn pmx smn smx gmn gmx bmn bmx hmn hmx zmn zmx w s :
  mixes ctx xs ys pmn pmx smn smx gmn gmx bmn bmx hmn hmx zmn zmx = Ok (w, s) ->
  mixes ctx xs ys (Z.max pmn 0) pmx (Z.max smn 0) smx (Z.max gmn 0) gmx (Z.max bmn 3) bmx
    (Z.max hmn 0) hmx (Z.max zmn 3) zmx = Ok ([], s).
Proof.
  unfold mixes. change MIN_CONTOUR_SIZE with 3%Z.
  intros Hok; validate_hyp; try discriminate.
  repeat rewrite validate_clamp by (assumption || lia); cbn [rbind app].
  destruct (b2z (may_have pmx) + b2z (may_have smx) + b2z (may_have gmx) <? MIN_MIX_COMPONENTS_COUNT)%Z;
    cbn [rbind] in *; [discriminate|]. injection Hok as _ <-.
  rewrite <- ?Z.max_assoc, ?Z.max_id. reflexivity.
Qed.

(** Omitted ordinates. *)
Lemma y_none :
  points xs None = points xs (Some xs)
  /\ segments xs None = segments xs (Some xs)
  /\ boxes xs None = boxes xs (Some xs)
  /\ triangular_contours xs None = triangular_contours xs (Some xs)
  /\ rectangular_contours xs None = rectangular_contours xs (Some xs)
  /\ (forall mn mx, multipoints xs None mn mx = multipoints xs (Some xs) mn mx)
  /\ (forall mn mx, multisegments ctx xs None mn mx = multisegments ctx xs (Some xs) mn mx)
  /\ (forall mn mx, contours ctx xs None mn mx = contours ctx xs (Some xs) mn mx)
  /\ (forall mn mx, convex_contours ctx xs None mn mx = convex_contours ctx xs (Some xs) mn mx)
  /\ (forall mn mx, concave_contours ctx xs None mn mx = concave_contours ctx xs (Some xs) mn mx)
  /\ (forall mn mx, star_contours ctx xs None mn mx = star_contours ctx xs (Some xs) mn mx)
  /\ (forall mn mx a b, multicontours ctx xs None mn mx a b = multicontours ctx xs (Some xs) mn mx a b)
  /\ (forall mn mx a b c d, polygons ctx xs None mn mx a b c d = polygons ctx xs (Some xs) mn mx a b c d)
  /\ (forall mn mx a b c d e f, multipolygons ctx xs None mn mx a b c d e f
                              = multipolygons ctx xs (Some xs) mn mx a b c d e f)
  /\ (forall mn mx a b c d e f g h i j, mixes ctx xs None mn mx a b c d e f g h i j
                              = mixes ctx xs (Some xs) mn mx a b c d e f g h i j).
Proof. repeat split; intros; reflexivity. Qed.
End API.
