(** * Conformance of the IEEE instance with the repository's own unit tests.

    GENERATED by tools/gen_fidelity.py from
    /repo/ink_stroke_modeler/stroke_modeler_test.cc and
    /repo/ink_stroke_modeler/internal/prediction/kalman_predictor_test.cc.
    These are tests of the model, not theorems: each [Goal] replays a unit test on
    the model by computation and checks every expected value within the tolerances
    of the C++ test (kTol = 1e-4, kAccelTol = 1e-3); the build fails if one does
    not hold. *)
From Coq Require Import ZArith Bool List.
From Flocq Require Import IEEE754.BinarySingleNaN.
From Verif Require Import Modeler Ieee.
Import ListNotations.
Open Scope Z_scope.

#[local] Instance test_arith : Arith := ieee (fun x => x).

Definition tol : float64 := (b64 7378697629483821 (-66)).
Definition acc_tol : float64 := (b64 1152921504606847 (-60)).
Definition dnear (t a b : float64) : bool := Bleb (Babs (Bminus mode_NE a b)) t.
Definition fnear (t : float64) (a b : float32) : bool := dnear t (b32_to_b64 a) (b32_to_b64 b).
Definition vnear (t : float64) (a b : Vec2) : bool :=
  fnear t (vx a) (vx b) && fnear t (vy a) (vy b).
Definition rnear (a b : Result) : bool :=
  vnear tol (r_pos a) (r_pos b) && vnear tol (r_vel a) (r_vel b) &&
  vnear acc_tol (r_acc a) (r_acc b) && dnear tol (r_time a) (r_time b) &&
  fnear tol (r_pressure a) (r_pressure b) && fnear tol (r_tilt a) (r_tilt b) &&
  fnear tol (r_orient a) (r_orient b).
Fixpoint all2 {X} (f : X -> X -> bool) (a b : list X) : bool :=
  match a, b with
  | [], [] => true
  | x :: a', y :: b' => f x y && all2 f a' b'
  | _, _ => false
  end.

Inductive tstep :=
| TClear | TUpdate (i : Input) | TPredict | TPredictFail | TSave | TRestore | TExpect (rs : list Result).

Fixpoint replay (m : Modeler) (vec : list Result) (ts : list tstep) : bool :=
  match ts with
  | [] => true
  | TClear :: r => replay m [] r
  | TUpdate i :: r =>
      match update 10 m i vec with
      | Ret (m', OkStatus, vec') => replay m' vec' r
      | _ => false
      end
  | TPredict :: r =>
      match predict 10 m vec with
      | Ret (m', OkStatus, vec') => replay m' vec' r
      | _ => false
      end
  | TPredictFail :: r =>
      match predict 10 m vec with
      | Ret (m', FailedPrecondition _, []) => replay m' [] r
      | _ => false
      end
  | TSave :: r => replay (save m) vec r
  | TRestore :: r => replay (restore m) vec r
  | TExpect rs :: r => all2 rnear vec rs && replay m vec r
  end.
Definition replay_test (p : StrokeModelParams) (ts : list tstep) : bool :=
  match reset_params modeler0 p with
  | (m, OkStatus) => replay m [] ts
  | _ => false
  end.

(** StrokeModelerTest.InputRateSlowerThanMinOutputRate: 45 expected results. *)
Definition steps_InputRateSlowerThanMinOutputRate : list tstep :=
  [TUpdate (mkInput EDown (mkVec2 (b32 3 0) (b32 4 0)) (b64 0 0) (b32 (-1) 0) (b32 (-1) 0) (b32 (-1) 0));
  TExpect [mkResult (mkVec2 (b32 3 0) (b32 4 0)) (mkVec2 (b32 0 0) (b32 0 0)) (mkVec2 (b32 0 0) (b32 0 0)) (b64 0 0) (b32 (-1) 0) (b32 (-1) 0) (b32 (-1) 0)];
  TPredict;
  TExpect [];
  TClear;
  TUpdate (mkInput EMove (mkVec2 (b32 13421773 (-22)) (b32 4404019 (-20))) (b64 4803839602528529 (-57)) (b32 (-1) 0) (b32 (-1) 0) (b32 (-1) 0));
  TExpect [mkResult (mkVec2 (b32 12590881 (-22)) (b32 8392593 (-21))) (mkVec2 (b32 13445261 (-25)) (b32 13445261 (-25))) (mkVec2 (b32 1378807 (-14)) (b32 2757637 (-15))) (b64 5534023222112865 (-60)) (b32 (-1) 0) (b32 (-1) 0) (b32 (-1) 0);
   mkResult (mkVec2 (b32 12611853 (-22)) (b32 4201539 (-20))) (mkVec2 (b32 4354107 (-22)) (b32 4354107 (-22))) (mkVec2 (b32 4385597 (-15)) (b32 8771135 (-16))) (b64 5476377146882523 (-59)) (b32 (-1) 0) (b32 (-1) 0) (b32 (-1) 0);
   mkResult (mkVec2 (b32 790469 (-18)) (b32 1052613 (-18))) (mkVec2 (b32 3750337 (-21)) (b32 3750337 (-21))) (mkVec2 (b32 10324967 (-16)) (b32 161327 (-10))) (b64 2060847189484739 (-57)) (b32 (-1) 0) (b32 (-1) 0) (b32 (-1) 0);
   mkResult (mkVec2 (b32 12698675 (-22)) (b32 8446489 (-21))) (mkVec2 (b32 10748323 (-22)) (b32 10748323 (-22))) (mkVec2 (b32 10656409 (-16)) (b32 10656291 (-16))) (b64 5476377146882523 (-58)) (b32 (-1) 0) (b32 (-1) 0) (b32 (-1) 0);
   mkResult (mkVec2 (b32 12764525 (-22)) (b32 8479415 (-21))) (mkVec2 (b32 6922699 (-21)) (b32 6922699 (-21))) (mkVec2 (b32 10162471 (-16)) (b32 10162445 (-16))) (b64 1714970738102685 (-56)) (b32 (-1) 0) (b32 (-1) 0) (b32 (-1) 0);
   mkResult (mkVec2 (b32 6421899 (-21)) (b32 8519051 (-21))) (mkVec2 (b32 16636707 (-22)) (b32 16636707 (-22))) (mkVec2 (b32 2289787 (-14)) (b32 9159075 (-16))) (b64 2060847189484739 (-56)) (b32 (-1) 0) (b32 (-1) 0) (b32 (-1) 0);
   mkResult (mkVec2 (b32 12934395 (-22)) (b32 8564349 (-21))) (mkVec2 (b32 9520441 (-21)) (b32 9520441 (-21))) (mkVec2 (b32 7888031 (-16)) (b32 7888077 (-16))) (b64 4799035762926001 (-57)) (b32 (-1) 0) (b32 (-1) 0) (b32 (-1) 0)];
  TPredict;
  TExpect [mkResult (mkVec2 (b32 3260547 (-20)) (b32 4309123 (-20))) (mkVec2 (b32 9699957 (-21)) (b32 9699957 (-21))) (mkVec2 (b32 16170929 (-20)) (b32 8085727 (-19))) (b64 5606080816150793 (-57)) (b32 (-1) 0) (b32 (-1) 0) (b32 (-1) 0);
   mkResult (mkVec2 (b32 6570587 (-21)) (b32 8667739 (-21))) (mkVec2 (b32 2231527 (-19)) (b32 2231527 (-19))) (mkVec2 (b32 (-4353825) (-16)) (b32 (-1088453) (-14))) (b64 6398714350568001 (-57)) (b32 (-1) 0) (b32 (-1) 0) (b32 (-1) 0);
   mkResult (mkVec2 (b32 6613159 (-21)) (b32 8710311 (-21))) (mkVec2 (b32 7650201 (-21)) (b32 7650201 (-21))) (mkVec2 (b32 (-224273) (-11)) (b32 (-7176723) (-16))) (b64 3602879701896397 (-56)) (b32 (-1) 0) (b32 (-1) 0) (b32 (-1) 0);
   mkResult (mkVec2 (b32 13295105 (-22)) (b32 34159 (-13))) (mkVec2 (b32 6189115 (-21)) (b32 6189115 (-21))) (mkVec2 (b32 (-4109035) (-15)) (b32 (-8218057) (-16))) (b64 4006402228508793 (-56)) (b32 (-1) 0) (b32 (-1) 0) (b32 (-1) 0);
   mkResult (mkVec2 (b32 13347953 (-22)) (b32 8771129 (-21))) (mkVec2 (b32 9499679 (-22)) (b32 9499679 (-22))) (mkVec2 (b32 (-2023945) (-14)) (b32 (-16191455) (-17))) (b64 4402718995717397 (-56)) (b32 (-1) 0) (b32 (-1) 0) (b32 (-1) 0);
   mkResult (mkVec2 (b32 13386121 (-22)) (b32 8790213 (-21))) (mkVec2 (b32 6909277 (-22)) (b32 6909277 (-22))) (mkVec2 (b32 (-14572821) (-17)) (b32 (-1821583) (-14))) (b64 4806241522329793 (-56)) (b32 (-1) 0) (b32 (-1) 0) (b32 (-1) 0);
   mkResult (mkVec2 (b32 13412545 (-22)) (b32 8803425 (-21))) (mkVec2 (b32 4726561 (-22)) (b32 4726561 (-22))) (mkVec2 (b32 (-12276767) (-17)) (b32 (-12276675) (-17))) (b64 5202558289538397 (-56)) (b32 (-1) 0) (b32 (-1) 0) (b32 (-1) 0);
   mkResult (mkVec2 (b32 13418417 (-22)) (b32 8806361 (-21))) (mkVec2 (b32 1072903 (-20)) (b32 1072903 (-20))) (mkVec2 (b32 (-9783083) (-17)) (b32 (-9783109) (-17))) (b64 662929865148937 (-53)) (b32 (-1) 0) (b32 (-1) 0) (b32 (-1) 0)];
  TClear;
  TUpdate (mkInput EMove (mkVec2 (b32 7 (-1)) (b32 4404019 (-20))) (b64 4803839602528529 (-56)) (b32 (-1) 0) (b32 (-1) 0) (b32 (-1) 0));
  TExpect [mkResult (mkVec2 (b32 13038413 (-22)) (b32 8610487 (-21))) (mkVec2 (b32 5467485 (-20)) (b32 2418593 (-19))) (mkVec2 (b32 2320887 (-14)) (b32 8085727 (-19))) (b64 5490788665690109 (-57)) (b32 (-1) 0) (b32 (-1) 0) (b32 (-1) 0);
   mkResult (mkVec2 (b32 13156693 (-22)) (b32 4326949 (-20))) (mkVec2 (b32 12394797 (-21)) (b32 4564661 (-20))) (mkVec2 (b32 9580531 (-16)) (b32 (-7152337) (-17))) (b64 6182541568454217 (-57)) (b32 (-1) 0) (b32 (-1) 0) (b32 (-1) 0);
   mkResult (mkVec2 (b32 13287975 (-22)) (b32 8692695 (-21))) (mkVec2 (b32 13787097 (-21)) (b32 16322973 (-22))) (mkVec2 (b32 9135797 (-16)) (b32 (-3175773) (-15))) (b64 1714970738102685 (-55)) (b32 (-1) 0) (b32 (-1) 0) (b32 (-1) 0);
   mkResult (mkVec2 (b32 1678875 (-19)) (b32 1090755 (-18))) (mkVec2 (b32 15041613 (-21)) (b32 13960741 (-22))) (mkVec2 (b32 8233327 (-16)) (b32 (-3875609) (-15))) (b64 117994310237107 (-51)) (b32 (-1) 0) (b32 (-1) 0) (b32 (-1) 0);
   mkResult (mkVec2 (b32 106129 (-15)) (b32 8753303 (-21))) (mkVec2 (b32 8061033 (-20)) (b32 11476035 (-22))) (mkVec2 (b32 14180785 (-17)) (b32 (-16306497) (-17))) (b64 4114488619565685 (-56)) (b32 (-1) 0) (b32 (-1) 0) (b32 (-1) 0);
   mkResult (mkVec2 (b32 13746831 (-22)) (b32 8774903 (-21))) (mkVec2 (b32 265873 (-15)) (b32 4538237 (-21))) (mkVec2 (b32 5865793 (-16)) (b32 (-15745797) (-17))) (b64 4460365070947739 (-56)) (b32 (-1) 0) (b32 (-1) 0) (b32 (-1) 0);
   mkResult (mkVec2 (b32 6957721 (-21)) (b32 8791261 (-21))) (mkVec2 (b32 4431859 (-19)) (b32 3446879 (-21))) (mkVec2 (b32 4669263 (-16)) (b32 (-111919) (-10))) (b64 4806241522329793 (-56)) (b32 (-1) 0) (b32 (-1) 0) (b32 (-1) 0)];
  TPredict;
  TExpect [mkResult (mkVec2 (b32 14103347 (-22)) (b32 1100533 (-18))) (mkVec2 (b32 8445755 (-20)) (b32 9365881 (-23))) (mkVec2 (b32 (-9403459) (-17)) (b32 (-12435653) (-17))) (b64 5202558289538397 (-56)) (b32 (-1) 0) (b32 (-1) 0) (b32 (-1) 0);
   mkResult (mkVec2 (b32 14268183 (-22)) (b32 4406221 (-20))) (mkVec2 (b32 14854337 (-21)) (b32 11722241 (-24))) (mkVec2 (b32 (-5729383) (-15)) (b32 (-9856051) (-17))) (b64 5606080816150793 (-56)) (b32 (-1) 0) (b32 (-1) 0) (b32 (-1) 0);
   mkResult (mkVec2 (b32 7202459 (-21)) (b32 275533 (-16))) (mkVec2 (b32 12281761 (-21)) (b32 12905035 (-25))) (mkVec2 (b32 (-7235633) (-15)) (b32 (-3706159) (-16))) (b64 6002397583359397 (-56)) (b32 (-1) 0) (b32 (-1) 0) (b32 (-1) 0);
   mkResult (mkVec2 (b32 14511453 (-22)) (b32 34449 (-13))) (mkVec2 (b32 9621733 (-21)) (b32 5405619 (-25))) (mkVec2 (b32 (-7481603) (-15)) (b32 (-10544585) (-18))) (b64 3202960054985897 (-55)) (b32 (-1) 0) (b32 (-1) 0) (b32 (-1) 0);
   mkResult (mkVec2 (b32 14591145 (-22)) (b32 34449 (-13))) (mkVec2 (b32 7150869 (-21)) (b32 13314399 (-30))) (mkVec2 (b32 (-13898075) (-16)) (b32 (-7017831) (-18))) (b64 6802236877180397 (-56)) (b32 (-1) 0) (b32 (-1) 0) (b32 (-1) 0);
   mkResult (mkVec2 (b32 14646929 (-22)) (b32 8818105 (-21))) (mkVec2 (b32 5018275 (-21)) (b32 (-10468983) (-27))) (mkVec2 (b32 (-2998883) (-14)) (b32 (-8527439) (-19))) (b64 3602879701896397 (-55)) (b32 (-1) 0) (b32 (-1) 0) (b32 (-1) 0);
   mkResult (mkVec2 (b32 7334999 (-21)) (b32 2204369 (-19))) (mkVec2 (b32 8300947 (-22)) (b32 (-13623099) (-27))) (mkVec2 (b32 (-9763501) (-16)) (b32 (-8894231) (-20))) (b64 462970041693687 (-52)) (b32 (-1) 0) (b32 (-1) 0) (b32 (-1) 0);
   mkResult (mkVec2 (b32 14680483 (-22)) (b32 4408633 (-20))) (mkVec2 (b32 3756209 (-21)) (b32 (-14737107) (-27))) (mkVec2 (b32 (-8871995) (-16)) (b32 (-390221) (-16))) (b64 7508401298752091 (-56)) (b32 (-1) 0) (b32 (-1) 0) (b32 (-1) 0)];
  TClear;
  TUpdate (mkInput EUp (mkVec2 (b32 15518925 (-22)) (b32 9227469 (-21))) (b64 3602879701896397 (-55)) (b32 (-1) 0) (b32 (-1) 0) (b32 (-1) 0));
  TExpect [mkResult (mkVec2 (b32 14085731 (-22)) (b32 275225 (-16))) (mkVec2 (b32 8925689 (-20)) (b32 6679429 (-22))) (mkVec2 (b32 13015869 (-20)) (b32 (-1405105) (-17))) (b64 5144912214308055 (-56)) (b32 (-1) 0) (b32 (-1) 0) (b32 (-1) 0);
   mkResult (mkVec2 (b32 3563271 (-20)) (b32 4412827 (-20))) (mkVec2 (b32 4395211 (-19)) (b32 7773723 (-22))) (mkVec2 (b32 (-3549207) (-17)) (b32 1794805 (-15))) (b64 5490788665690109 (-56)) (b32 (-1) 0) (b32 (-1) 0) (b32 (-1) 0);
   mkResult (mkVec2 (b32 14415403 (-22)) (b32 8848723 (-21))) (mkVec2 (b32 8534675 (-20)) (b32 4827015 (-21))) (mkVec2 (b32 (-1678449) (-15)) (b32 12340979 (-17))) (b64 5836665117072163 (-56)) (b32 (-1) 0) (b32 (-1) 0) (b32 (-1) 0);
   mkResult (mkVec2 (b32 7286135 (-21)) (b32 8877035 (-21))) (mkVec2 (b32 16433703 (-21)) (b32 2981521 (-20))) (mkVec2 (b32 (-8344935) (-17)) (b32 14908811 (-17))) (b64 771916976131303 (-53)) (b32 (-1) 0) (b32 (-1) 0) (b32 (-1) 0);
   mkResult (mkVec2 (b32 14722007 (-22)) (b32 4455609 (-20))) (mkVec2 (b32 15758629 (-21)) (b32 3575749 (-20))) (mkVec2 (b32 (-8859497) (-17)) (b32 1950063 (-14))) (b64 3260606130216239 (-55)) (b32 (-1) 0) (b32 (-1) 0) (b32 (-1) 0);
   mkResult (mkVec2 (b32 929117 (-18)) (b32 8950645 (-21))) (mkVec2 (b32 7551425 (-20)) (b32 16590989 (-22))) (mkVec2 (b32 (-1075721) (-14)) (b32 3753227 (-15))) (b64 1714970738102685 (-54)) (b32 (-1) 0) (b32 (-1) 0) (b32 (-1) 0);
   mkResult (mkVec2 (b32 3751071 (-20)) (b32 281097 (-16))) (mkVec2 (b32 7251847 (-20)) (b32 9333375 (-21))) (mkVec2 (b32 (-7864307) (-17)) (b32 1703025 (-14))) (b64 3602879701896397 (-55)) (b32 (-1) 0) (b32 (-1) 0) (b32 (-1) 0);
   mkResult (mkVec2 (b32 15147729 (-22)) (b32 9047323 (-21))) (mkVec2 (b32 6457131 (-20)) (b32 293811 (-16))) (mkVec2 (b32 (-8941155) (-16)) (b32 6169087 (-20))) (b64 3804640965202595 (-55)) (b32 (-1) 0) (b32 (-1) 0) (b32 (-1) 0);
   mkResult (mkVec2 (b32 15267267 (-22)) (b32 9095139 (-21))) (mkVec2 (b32 2696623 (-19)) (b32 8588467 (-21))) (mkVec2 (b32 (-5984269) (-15)) (b32 (-9152941) (-17))) (b64 4002799348806897 (-55)) (b32 (-1) 0) (b32 (-1) 0) (b32 (-1) 0);
   mkResult (mkVec2 (b32 7681029 (-21)) (b32 9135823 (-21))) (mkVec2 (b32 8529327 (-21)) (b32 914935 (-18))) (mkVec2 (b32 (-12696951) (-16)) (b32 (-14275301) (-17))) (b64 4204560612113095 (-55)) (b32 (-1) 0) (b32 (-1) 0) (b32 (-1) 0);
   mkResult (mkVec2 (b32 15433361 (-22)) (b32 9168539 (-21))) (mkVec2 (b32 12798919 (-22)) (b32 11785575 (-22))) (mkVec2 (b32 (-11979699) (-16)) (b32 (-16051051) (-17))) (b64 4402718995717397 (-55)) (b32 (-1) 0) (b32 (-1) 0) (b32 (-1) 0);
   mkResult (mkVec2 (b32 15483693 (-22)) (b32 9193495 (-21))) (mkVec2 (b32 9079829 (-22)) (b32 9001815 (-22))) (mkVec2 (b32 (-5230153) (-15)) (b32 (-15657219) (-17))) (b64 4604480259023595 (-55)) (b32 (-1) 0) (b32 (-1) 0) (b32 (-1) 0);
   mkResult (mkVec2 (b32 15517247 (-22)) (b32 4605765 (-20))) (mkVec2 (b32 12046041 (-23)) (b32 13026669 (-23))) (mkVec2 (b32 (-8597707) (-16)) (b32 (-874845) (-13))) (b64 4802638642627897 (-55)) (b32 (-1) 0) (b32 (-1) 0) (b32 (-1) 0);
   mkResult (mkVec2 (b32 15530669 (-22)) (b32 1152385 (-18))) (mkVec2 (b32 2415919 (-21)) (b32 2735525 (-21))) (mkVec2 (b32 (-3349273) (-15)) (b32 (-5864633) (-16))) (b64 1225879818570249 (-53)) (b32 (-1) 0) (b32 (-1) 0) (b32 (-1) 0)];
  TPredictFail].
Goal replay_test (mkParams (mkWobbleParams true (b64 5764607523034235 (-57)) (b32 2747269 (-21)) (b32 3019899 (-21))) (mkPositionParams (fdiv (b32 11 0) (b32 32400 0) : float32) (b32 72 0) (mkLoopParams false (b32 (-1) 0) (b32 (-1) 0) (b32 (-1) 0) (b32 (-1) 0) (b64 0 0) (-1))) (mkSamplingParams (b64 180 0) (b32 8589935 (-33)) 20 100000 (b64 (-1) 0)) (mkStylusParams 20 false (-1) (b64 (-1) 0)) PredStrokeEnd) steps_InputRateSlowerThanMinOutputRate = true.
Proof. vm_compute. reflexivity. Abort.

(** StrokeModelerTest.InputRateSlowerThanMinOutputRateNormalProjection: 45 expected results. *)
Definition steps_InputRateSlowerThanMinOutputRateNormalProjection : list tstep :=
  [TUpdate (mkInput EDown (mkVec2 (b32 3 0) (b32 4 0)) (b64 0 0) (b32 (-1) 0) (b32 (-1) 0) (b32 (-1) 0));
  TExpect [mkResult (mkVec2 (b32 3 0) (b32 4 0)) (mkVec2 (b32 0 0) (b32 0 0)) (mkVec2 (b32 0 0) (b32 0 0)) (b64 0 0) (b32 (-1) 0) (b32 (-1) 0) (b32 (-1) 0)];
  TPredict;
  TExpect [];
  TClear;
  TUpdate (mkInput EMove (mkVec2 (b32 13421773 (-22)) (b32 4404019 (-20))) (b64 4803839602528529 (-57)) (b32 (-1) 0) (b32 (-1) 0) (b32 (-1) 0));
  TExpect [mkResult (mkVec2 (b32 12590881 (-22)) (b32 8392593 (-21))) (mkVec2 (b32 13445261 (-25)) (b32 13445261 (-25))) (mkVec2 (b32 1378807 (-14)) (b32 2757637 (-15))) (b64 5534023222112865 (-60)) (b32 (-1) 0) (b32 (-1) 0) (b32 (-1) 0);
   mkResult (mkVec2 (b32 12611853 (-22)) (b32 4201539 (-20))) (mkVec2 (b32 4354107 (-22)) (b32 4354107 (-22))) (mkVec2 (b32 4385597 (-15)) (b32 8771135 (-16))) (b64 5476377146882523 (-59)) (b32 (-1) 0) (b32 (-1) 0) (b32 (-1) 0);
   mkResult (mkVec2 (b32 790469 (-18)) (b32 1052613 (-18))) (mkVec2 (b32 3750337 (-21)) (b32 3750337 (-21))) (mkVec2 (b32 10324967 (-16)) (b32 161327 (-10))) (b64 2060847189484739 (-57)) (b32 (-1) 0) (b32 (-1) 0) (b32 (-1) 0);
   mkResult (mkVec2 (b32 12698675 (-22)) (b32 8446489 (-21))) (mkVec2 (b32 10748323 (-22)) (b32 10748323 (-22))) (mkVec2 (b32 10656409 (-16)) (b32 10656291 (-16))) (b64 5476377146882523 (-58)) (b32 (-1) 0) (b32 (-1) 0) (b32 (-1) 0);
   mkResult (mkVec2 (b32 12764525 (-22)) (b32 8479415 (-21))) (mkVec2 (b32 6922699 (-21)) (b32 6922699 (-21))) (mkVec2 (b32 10162471 (-16)) (b32 10162445 (-16))) (b64 1714970738102685 (-56)) (b32 (-1) 0) (b32 (-1) 0) (b32 (-1) 0);
   mkResult (mkVec2 (b32 6421899 (-21)) (b32 8519051 (-21))) (mkVec2 (b32 16636707 (-22)) (b32 16636707 (-22))) (mkVec2 (b32 2289787 (-14)) (b32 9159075 (-16))) (b64 2060847189484739 (-56)) (b32 (-1) 0) (b32 (-1) 0) (b32 (-1) 0);
   mkResult (mkVec2 (b32 12934395 (-22)) (b32 8564349 (-21))) (mkVec2 (b32 9520441 (-21)) (b32 9520441 (-21))) (mkVec2 (b32 7888031 (-16)) (b32 7888077 (-16))) (b64 4799035762926001 (-57)) (b32 (-1) 0) (b32 (-1) 0) (b32 (-1) 0)];
  TPredict;
  TExpect [mkResult (mkVec2 (b32 3260547 (-20)) (b32 4309123 (-20))) (mkVec2 (b32 9699957 (-21)) (b32 9699957 (-21))) (mkVec2 (b32 16170929 (-20)) (b32 8085727 (-19))) (b64 5606080816150793 (-57)) (b32 (-1) 0) (b32 (-1) 0) (b32 (-1) 0);
   mkResult (mkVec2 (b32 6570587 (-21)) (b32 8667739 (-21))) (mkVec2 (b32 2231527 (-19)) (b32 2231527 (-19))) (mkVec2 (b32 (-4353825) (-16)) (b32 (-1088453) (-14))) (b64 6398714350568001 (-57)) (b32 (-1) 0) (b32 (-1) 0) (b32 (-1) 0);
   mkResult (mkVec2 (b32 6613159 (-21)) (b32 8710311 (-21))) (mkVec2 (b32 7650201 (-21)) (b32 7650201 (-21))) (mkVec2 (b32 (-224273) (-11)) (b32 (-7176723) (-16))) (b64 3602879701896397 (-56)) (b32 (-1) 0) (b32 (-1) 0) (b32 (-1) 0);
   mkResult (mkVec2 (b32 13295105 (-22)) (b32 34159 (-13))) (mkVec2 (b32 6189115 (-21)) (b32 6189115 (-21))) (mkVec2 (b32 (-4109035) (-15)) (b32 (-8218057) (-16))) (b64 4006402228508793 (-56)) (b32 (-1) 0) (b32 (-1) 0) (b32 (-1) 0);
   mkResult (mkVec2 (b32 13347953 (-22)) (b32 8771129 (-21))) (mkVec2 (b32 9499679 (-22)) (b32 9499679 (-22))) (mkVec2 (b32 (-2023945) (-14)) (b32 (-16191455) (-17))) (b64 4402718995717397 (-56)) (b32 (-1) 0) (b32 (-1) 0) (b32 (-1) 0);
   mkResult (mkVec2 (b32 13386121 (-22)) (b32 8790213 (-21))) (mkVec2 (b32 6909277 (-22)) (b32 6909277 (-22))) (mkVec2 (b32 (-14572821) (-17)) (b32 (-1821583) (-14))) (b64 4806241522329793 (-56)) (b32 (-1) 0) (b32 (-1) 0) (b32 (-1) 0);
   mkResult (mkVec2 (b32 13412545 (-22)) (b32 8803425 (-21))) (mkVec2 (b32 4726561 (-22)) (b32 4726561 (-22))) (mkVec2 (b32 (-12276767) (-17)) (b32 (-12276675) (-17))) (b64 5202558289538397 (-56)) (b32 (-1) 0) (b32 (-1) 0) (b32 (-1) 0);
   mkResult (mkVec2 (b32 13418417 (-22)) (b32 8806361 (-21))) (mkVec2 (b32 1072903 (-20)) (b32 1072903 (-20))) (mkVec2 (b32 (-9783083) (-17)) (b32 (-9783109) (-17))) (b64 662929865148937 (-53)) (b32 (-1) 0) (b32 (-1) 0) (b32 (-1) 0)];
  TClear;
  TUpdate (mkInput EMove (mkVec2 (b32 7 (-1)) (b32 4404019 (-20))) (b64 4803839602528529 (-56)) (b32 (-1) 0) (b32 (-1) 0) (b32 (-1) 0));
  TExpect [mkResult (mkVec2 (b32 13038413 (-22)) (b32 8610487 (-21))) (mkVec2 (b32 5467485 (-20)) (b32 2418593 (-19))) (mkVec2 (b32 2320887 (-14)) (b32 8085727 (-19))) (b64 5490788665690109 (-57)) (b32 (-1) 0) (b32 (-1) 0) (b32 (-1) 0);
   mkResult (mkVec2 (b32 13156693 (-22)) (b32 4326949 (-20))) (mkVec2 (b32 12394797 (-21)) (b32 4564661 (-20))) (mkVec2 (b32 9580531 (-16)) (b32 (-7152337) (-17))) (b64 6182541568454217 (-57)) (b32 (-1) 0) (b32 (-1) 0) (b32 (-1) 0);
   mkResult (mkVec2 (b32 13287975 (-22)) (b32 8692695 (-21))) (mkVec2 (b32 13787097 (-21)) (b32 16322973 (-22))) (mkVec2 (b32 9135797 (-16)) (b32 (-3175773) (-15))) (b64 1714970738102685 (-55)) (b32 (-1) 0) (b32 (-1) 0) (b32 (-1) 0);
   mkResult (mkVec2 (b32 1678875 (-19)) (b32 1090755 (-18))) (mkVec2 (b32 15041613 (-21)) (b32 13960741 (-22))) (mkVec2 (b32 8233327 (-16)) (b32 (-3875609) (-15))) (b64 117994310237107 (-51)) (b32 (-1) 0) (b32 (-1) 0) (b32 (-1) 0);
   mkResult (mkVec2 (b32 106129 (-15)) (b32 8753303 (-21))) (mkVec2 (b32 8061033 (-20)) (b32 11476035 (-22))) (mkVec2 (b32 14180785 (-17)) (b32 (-16306497) (-17))) (b64 4114488619565685 (-56)) (b32 (-1) 0) (b32 (-1) 0) (b32 (-1) 0);
   mkResult (mkVec2 (b32 13746831 (-22)) (b32 8774903 (-21))) (mkVec2 (b32 265873 (-15)) (b32 4538237 (-21))) (mkVec2 (b32 5865793 (-16)) (b32 (-15745797) (-17))) (b64 4460365070947739 (-56)) (b32 (-1) 0) (b32 (-1) 0) (b32 (-1) 0);
   mkResult (mkVec2 (b32 6957721 (-21)) (b32 8791261 (-21))) (mkVec2 (b32 4431859 (-19)) (b32 3446879 (-21))) (mkVec2 (b32 4669263 (-16)) (b32 (-111919) (-10))) (b64 4806241522329793 (-56)) (b32 (-1) 0) (b32 (-1) 0) (b32 (-1) 0)];
  TPredict;
  TExpect [mkResult (mkVec2 (b32 14103347 (-22)) (b32 1100533 (-18))) (mkVec2 (b32 8445755 (-20)) (b32 9365881 (-23))) (mkVec2 (b32 (-9403459) (-17)) (b32 (-12435653) (-17))) (b64 5202558289538397 (-56)) (b32 (-1) 0) (b32 (-1) 0) (b32 (-1) 0);
   mkResult (mkVec2 (b32 14268183 (-22)) (b32 4406221 (-20))) (mkVec2 (b32 14854337 (-21)) (b32 11722241 (-24))) (mkVec2 (b32 (-5729383) (-15)) (b32 (-9856051) (-17))) (b64 5606080816150793 (-56)) (b32 (-1) 0) (b32 (-1) 0) (b32 (-1) 0);
   mkResult (mkVec2 (b32 7202459 (-21)) (b32 275533 (-16))) (mkVec2 (b32 12281761 (-21)) (b32 12905035 (-25))) (mkVec2 (b32 (-7235633) (-15)) (b32 (-3706159) (-16))) (b64 6002397583359397 (-56)) (b32 (-1) 0) (b32 (-1) 0) (b32 (-1) 0);
   mkResult (mkVec2 (b32 14511453 (-22)) (b32 34449 (-13))) (mkVec2 (b32 9621733 (-21)) (b32 5405619 (-25))) (mkVec2 (b32 (-7481603) (-15)) (b32 (-10544585) (-18))) (b64 3202960054985897 (-55)) (b32 (-1) 0) (b32 (-1) 0) (b32 (-1) 0);
   mkResult (mkVec2 (b32 14591145 (-22)) (b32 34449 (-13))) (mkVec2 (b32 7150869 (-21)) (b32 13314399 (-30))) (mkVec2 (b32 (-13898075) (-16)) (b32 (-7017831) (-18))) (b64 6802236877180397 (-56)) (b32 (-1) 0) (b32 (-1) 0) (b32 (-1) 0);
   mkResult (mkVec2 (b32 14646929 (-22)) (b32 8818105 (-21))) (mkVec2 (b32 5018275 (-21)) (b32 (-10468983) (-27))) (mkVec2 (b32 (-2998883) (-14)) (b32 (-8527439) (-19))) (b64 3602879701896397 (-55)) (b32 (-1) 0) (b32 (-1) 0) (b32 (-1) 0);
   mkResult (mkVec2 (b32 7334999 (-21)) (b32 2204369 (-19))) (mkVec2 (b32 8300947 (-22)) (b32 (-13623099) (-27))) (mkVec2 (b32 (-9763501) (-16)) (b32 (-8894231) (-20))) (b64 462970041693687 (-52)) (b32 (-1) 0) (b32 (-1) 0) (b32 (-1) 0);
   mkResult (mkVec2 (b32 14680483 (-22)) (b32 4408633 (-20))) (mkVec2 (b32 3756209 (-21)) (b32 (-14737107) (-27))) (mkVec2 (b32 (-8871995) (-16)) (b32 (-390221) (-16))) (b64 7508401298752091 (-56)) (b32 (-1) 0) (b32 (-1) 0) (b32 (-1) 0)];
  TClear;
  TUpdate (mkInput EUp (mkVec2 (b32 15518925 (-22)) (b32 9227469 (-21))) (b64 3602879701896397 (-55)) (b32 (-1) 0) (b32 (-1) 0) (b32 (-1) 0));
  TExpect [mkResult (mkVec2 (b32 14085731 (-22)) (b32 275225 (-16))) (mkVec2 (b32 8925689 (-20)) (b32 6679429 (-22))) (mkVec2 (b32 13015869 (-20)) (b32 (-1405105) (-17))) (b64 5144912214308055 (-56)) (b32 (-1) 0) (b32 (-1) 0) (b32 (-1) 0);
   mkResult (mkVec2 (b32 3563271 (-20)) (b32 4412827 (-20))) (mkVec2 (b32 4395211 (-19)) (b32 7773723 (-22))) (mkVec2 (b32 (-3549207) (-17)) (b32 1794805 (-15))) (b64 5490788665690109 (-56)) (b32 (-1) 0) (b32 (-1) 0) (b32 (-1) 0);
   mkResult (mkVec2 (b32 14415403 (-22)) (b32 8848723 (-21))) (mkVec2 (b32 8534675 (-20)) (b32 4827015 (-21))) (mkVec2 (b32 (-1678449) (-15)) (b32 12340979 (-17))) (b64 5836665117072163 (-56)) (b32 (-1) 0) (b32 (-1) 0) (b32 (-1) 0);
   mkResult (mkVec2 (b32 7286135 (-21)) (b32 8877035 (-21))) (mkVec2 (b32 16433703 (-21)) (b32 2981521 (-20))) (mkVec2 (b32 (-8344935) (-17)) (b32 14908811 (-17))) (b64 771916976131303 (-53)) (b32 (-1) 0) (b32 (-1) 0) (b32 (-1) 0);
   mkResult (mkVec2 (b32 14722007 (-22)) (b32 4455609 (-20))) (mkVec2 (b32 15758629 (-21)) (b32 3575749 (-20))) (mkVec2 (b32 (-8859497) (-17)) (b32 1950063 (-14))) (b64 3260606130216239 (-55)) (b32 (-1) 0) (b32 (-1) 0) (b32 (-1) 0);
   mkResult (mkVec2 (b32 929117 (-18)) (b32 8950645 (-21))) (mkVec2 (b32 7551425 (-20)) (b32 16590989 (-22))) (mkVec2 (b32 (-1075721) (-14)) (b32 3753227 (-15))) (b64 1714970738102685 (-54)) (b32 (-1) 0) (b32 (-1) 0) (b32 (-1) 0);
   mkResult (mkVec2 (b32 3751071 (-20)) (b32 281097 (-16))) (mkVec2 (b32 7251847 (-20)) (b32 9333375 (-21))) (mkVec2 (b32 (-7864307) (-17)) (b32 1703025 (-14))) (b64 3602879701896397 (-55)) (b32 (-1) 0) (b32 (-1) 0) (b32 (-1) 0);
   mkResult (mkVec2 (b32 15147729 (-22)) (b32 9047323 (-21))) (mkVec2 (b32 6457131 (-20)) (b32 293811 (-16))) (mkVec2 (b32 (-8941155) (-16)) (b32 6169087 (-20))) (b64 3804640965202595 (-55)) (b32 (-1) 0) (b32 (-1) 0) (b32 (-1) 0);
   mkResult (mkVec2 (b32 15267267 (-22)) (b32 9095139 (-21))) (mkVec2 (b32 2696623 (-19)) (b32 8588467 (-21))) (mkVec2 (b32 (-5984269) (-15)) (b32 (-9152941) (-17))) (b64 4002799348806897 (-55)) (b32 (-1) 0) (b32 (-1) 0) (b32 (-1) 0);
   mkResult (mkVec2 (b32 7681029 (-21)) (b32 9135823 (-21))) (mkVec2 (b32 8529327 (-21)) (b32 914935 (-18))) (mkVec2 (b32 (-12696951) (-16)) (b32 (-14275301) (-17))) (b64 4204560612113095 (-55)) (b32 (-1) 0) (b32 (-1) 0) (b32 (-1) 0);
   mkResult (mkVec2 (b32 15433361 (-22)) (b32 9168539 (-21))) (mkVec2 (b32 12798919 (-22)) (b32 11785575 (-22))) (mkVec2 (b32 (-11979699) (-16)) (b32 (-16051051) (-17))) (b64 4402718995717397 (-55)) (b32 (-1) 0) (b32 (-1) 0) (b32 (-1) 0);
   mkResult (mkVec2 (b32 15483693 (-22)) (b32 9193495 (-21))) (mkVec2 (b32 9079829 (-22)) (b32 9001815 (-22))) (mkVec2 (b32 (-5230153) (-15)) (b32 (-15657219) (-17))) (b64 4604480259023595 (-55)) (b32 (-1) 0) (b32 (-1) 0) (b32 (-1) 0);
   mkResult (mkVec2 (b32 15517247 (-22)) (b32 4605765 (-20))) (mkVec2 (b32 12046041 (-23)) (b32 13026669 (-23))) (mkVec2 (b32 (-8597707) (-16)) (b32 (-874845) (-13))) (b64 4802638642627897 (-55)) (b32 (-1) 0) (b32 (-1) 0) (b32 (-1) 0);
   mkResult (mkVec2 (b32 15530669 (-22)) (b32 1152385 (-18))) (mkVec2 (b32 2415919 (-21)) (b32 2735525 (-21))) (mkVec2 (b32 (-3349273) (-15)) (b32 (-5864633) (-16))) (b64 1225879818570249 (-53)) (b32 (-1) 0) (b32 (-1) 0) (b32 (-1) 0)];
  TPredictFail].
Goal replay_test (mkParams (mkWobbleParams true (b64 5764607523034235 (-57)) (b32 2747269 (-21)) (b32 3019899 (-21))) (mkPositionParams (fdiv (b32 11 0) (b32 32400 0) : float32) (b32 72 0) (mkLoopParams false (b32 (-1) 0) (b32 (-1) 0) (b32 (-1) 0) (b32 (-1) 0) (b64 0 0) (-1))) (mkSamplingParams (b64 180 0) (b32 8589935 (-33)) 20 100000 (b64 (-1) 0)) (mkStylusParams 20 true 10 (b64 6016809102166983 (-54))) PredStrokeEnd) steps_InputRateSlowerThanMinOutputRateNormalProjection = true.
Proof. vm_compute. reflexivity. Abort.

(** StrokeModelerTest.InputRateSlowerThanMinOutputRateNormalProjectionWithLoopMitigation: 45 expected results. *)
Definition steps_InputRateSlowerThanMinOutputRateNormalProjectionWithLoopMitigation : list tstep :=
  [TUpdate (mkInput EDown (mkVec2 (b32 3 0) (b32 4 0)) (b64 0 0) (b32 (-1) 0) (b32 (-1) 0) (b32 (-1) 0));
  TExpect [mkResult (mkVec2 (b32 3 0) (b32 4 0)) (mkVec2 (b32 0 0) (b32 0 0)) (mkVec2 (b32 0 0) (b32 0 0)) (b64 0 0) (b32 (-1) 0) (b32 (-1) 0) (b32 (-1) 0)];
  TPredict;
  TExpect [];
  TClear;
  TUpdate (mkInput EMove (mkVec2 (b32 13421773 (-22)) (b32 4404019 (-20))) (b64 4803839602528529 (-57)) (b32 (-1) 0) (b32 (-1) 0) (b32 (-1) 0));
  TExpect [mkResult (mkVec2 (b32 12590881 (-22)) (b32 8392593 (-21))) (mkVec2 (b32 13445261 (-25)) (b32 13445261 (-25))) (mkVec2 (b32 1378807 (-14)) (b32 2757637 (-15))) (b64 5490096912787345 (-60)) (b32 (-1) 0) (b32 (-1) 0) (b32 (-1) 0);
   mkResult (mkVec2 (b32 12611853 (-22)) (b32 4201539 (-20))) (mkVec2 (b32 16624543 (-24)) (b32 16624543 (-24))) (mkVec2 (b32 4148501 (-15)) (b32 16593899 (-17))) (b64 1372525669348717 (-57)) (b32 (-1) 0) (b32 (-1) 0) (b32 (-1) 0);
   mkResult (mkVec2 (b32 790469 (-18)) (b32 1052613 (-18))) (mkVec2 (b32 13905795 (-23)) (b32 13905795 (-23))) (mkVec2 (b32 9398151 (-16)) (b32 4699059 (-15))) (b64 8235145369181017 (-59)) (b32 (-1) 0) (b32 (-1) 0) (b32 (-1) 0);
   mkResult (mkVec2 (b32 12698675 (-22)) (b32 8446489 (-21))) (mkVec2 (b32 9701845 (-22)) (b32 9701845 (-22))) (mkVec2 (b32 9358351 (-16)) (b32 4679123 (-15))) (b64 5490096912787345 (-58)) (b32 (-1) 0) (b32 (-1) 0) (b32 (-1) 0);
   mkResult (mkVec2 (b32 12764525 (-22)) (b32 8479415 (-21))) (mkVec2 (b32 1531655 (-19)) (b32 1531655 (-19))) (mkVec2 (b32 8719847 (-16)) (b32 2179955 (-14))) (b64 6862621140984181 (-58)) (b32 (-1) 0) (b32 (-1) 0) (b32 (-1) 0);
   mkResult (mkVec2 (b32 6421899 (-21)) (b32 8519051 (-21))) (mkVec2 (b32 14571851 (-22)) (b32 14571851 (-22))) (mkVec2 (b32 15744827 (-17)) (b32 15744723 (-17))) (b64 8235145369181017 (-58)) (b32 (-1) 0) (b32 (-1) 0) (b32 (-1) 0);
   mkResult (mkVec2 (b32 12934395 (-22)) (b32 8564349 (-21))) (mkVec2 (b32 4171445 (-20)) (b32 4171445 (-20))) (mkVec2 (b32 14143377 (-17)) (b32 7071721 (-16))) (b64 4803834798688927 (-57)) (b32 (-1) 0) (b32 (-1) 0) (b32 (-1) 0)];
  TPredict;
  TExpect [mkResult (mkVec2 (b32 6521073 (-21)) (b32 8618225 (-21))) (mkVec2 (b32 8806235 (-21)) (b32 4403107 (-20))) (mkVec2 (b32 10970019 (-18)) (b32 10970097 (-18))) (b64 5604481137563151 (-57)) (b32 (-1) 0) (b32 (-1) 0) (b32 (-1) 0);
   mkResult (mkVec2 (b32 6570671 (-21)) (b32 8667823 (-21))) (mkVec2 (b32 8732289 (-21)) (b32 2183067 (-19))) (mkVec2 (b32 (-3334975) (-22)) (b32 (-13337987) (-24))) (b64 6405113064918569 (-57)) (b32 (-1) 0) (b32 (-1) 0) (b32 (-1) 0);
   mkResult (mkVec2 (b32 6613159 (-21)) (b32 8710311 (-21))) (mkVec2 (b32 8407965 (-21)) (b32 1050993 (-18))) (mkVec2 (b32 (-2065367) (-17)) (b32 (-16522831) (-20))) (b64 3602879701896397 (-56)) (b32 (-1) 0) (b32 (-1) 0) (b32 (-1) 0);
   mkResult (mkVec2 (b32 13295105 (-22)) (b32 34159 (-13))) (mkVec2 (b32 996931 (-18)) (b32 996931 (-18))) (mkVec2 (b32 (-15522071) (-20)) (b32 (-15522071) (-20))) (b64 4003202871333509 (-56)) (b32 (-1) 0) (b32 (-1) 0) (b32 (-1) 0);
   mkResult (mkVec2 (b32 13347869 (-22)) (b32 8771087 (-21))) (mkVec2 (b32 3754395 (-20)) (b32 7508769 (-21))) (mkVec2 (b32 (-11550337) (-21)) (b32 (-2887385) (-19))) (b64 2201759417505609 (-55)) (b32 (-1) 0) (b32 (-1) 0) (b32 (-1) 0);
   mkResult (mkVec2 (b32 13386247 (-22)) (b32 2197569 (-19))) (mkVec2 (b32 881239 (-18)) (b32 881239 (-18))) (mkVec2 (b32 7785855 (-20)) (b32 7786463 (-20))) (b64 2401921002224165 (-55)) (b32 (-1) 0) (b32 (-1) 0) (b32 (-1) 0);
   mkResult (mkVec2 (b32 13412503 (-22)) (b32 2200851 (-19))) (mkVec2 (b32 6624169 (-21)) (b32 6624169 (-21))) (mkVec2 (b32 5548645 (-18)) (b32 11097447 (-19))) (b64 5204157968126039 (-56)) (b32 (-1) 0) (b32 (-1) 0) (b32 (-1) 0);
   mkResult (mkVec2 (b32 13418459 (-22)) (b32 4403191 (-20))) (mkVec2 (b32 6554271 (-21)) (b32 6554271 (-21))) (mkVec2 (b32 4341983 (-17)) (b32 8683887 (-18))) (b64 5304238760485317 (-56)) (b32 (-1) 0) (b32 (-1) 0) (b32 (-1) 0)];
  TClear;
  TUpdate (mkInput EMove (mkVec2 (b32 7 (-1)) (b32 4404019 (-20))) (b64 4803839602528529 (-56)) (b32 (-1) 0) (b32 (-1) 0) (b32 (-1) 0));
  TExpect [mkResult (mkVec2 (b32 3259037 (-20)) (b32 8611137 (-21))) (mkVec2 (b32 4798011 (-20)) (b32 2184037 (-19))) (mkVec2 (b32 16671965 (-17)) (b32 5386535 (-17))) (b64 5490096912787345 (-57)) (b32 (-1) 0) (b32 (-1) 0) (b32 (-1) 0);
   mkResult (mkVec2 (b32 13150359 (-22)) (b32 8658449 (-21))) (mkVec2 (b32 2738655 (-19)) (b32 8850107 (-21))) (mkVec2 (b32 8955429 (-16)) (b32 7621281 (-20))) (b64 6176359026885763 (-57)) (b32 (-1) 0) (b32 (-1) 0) (b32 (-1) 0);
   mkResult (mkVec2 (b32 6637381 (-21)) (b32 2176267 (-19))) (mkVec2 (b32 6167703 (-20)) (b32 1113433 (-18))) (mkVec2 (b32 1156907 (-13)) (b32 (-11656055) (-22))) (b64 6862621140984181 (-57)) (b32 (-1) 0) (b32 (-1) 0) (b32 (-1) 0);
   mkResult (mkVec2 (b32 13409777 (-22)) (b32 4376043 (-20))) (mkVec2 (b32 6869001 (-20)) (b32 1136971 (-18))) (mkVec2 (b32 9500033 (-16)) (b32 9439323 (-21))) (b64 3774448833300703 (-56)) (b32 (-1) 0) (b32 (-1) 0) (b32 (-1) 0);
   mkResult (mkVec2 (b32 13569245 (-22)) (b32 4389161 (-20))) (mkVec2 (b32 14799853 (-21)) (b32 16551521 (-22))) (mkVec2 (b32 4482171 (-15)) (b32 (-2291841) (-20))) (b64 8235159780699825 (-57)) (b32 (-1) 0) (b32 (-1) 0) (b32 (-1) 0);
   mkResult (mkVec2 (b32 13739449 (-22)) (b32 4395515 (-20))) (mkVec2 (b32 7806921 (-20)) (b32 1735755 (-19))) (mkVec2 (b32 8043299 (-16)) (b32 (-1134107) (-16))) (b64 8921421894798243 (-57)) (b32 (-1) 0) (b32 (-1) 0) (b32 (-1) 0);
   mkResult (mkVec2 (b32 434775 (-17)) (b32 1099985 (-18))) (mkVec2 (b32 8172465 (-20)) (b32 702753 (-18))) (mkVec2 (b32 14288159 (-17)) (b32 (-4297261) (-17))) (b64 2401921002224165 (-55)) (b32 (-1) 0) (b32 (-1) 0) (b32 (-1) 0)];
  TPredict;
  TExpect [mkResult (mkVec2 (b32 7051401 (-21)) (b32 8806319 (-21))) (mkVec2 (b32 16408201 (-21)) (b32 16701047 (-23))) (mkVec2 (b32 9612349 (-18)) (b32 (-6827855) (-17))) (b64 5204157968126039 (-56)) (b32 (-1) 0) (b32 (-1) 0) (b32 (-1) 0);
   mkResult (mkVec2 (b32 14268645 (-22)) (b32 8810031 (-21))) (mkVec2 (b32 7969471 (-20)) (b32 1463141 (-20))) (mkVec2 (b32 (-3246103) (-18)) (b32 (-4464037) (-16))) (b64 5604481137563151 (-56)) (b32 (-1) 0) (b32 (-1) 0) (b32 (-1) 0);
   mkResult (mkVec2 (b32 14405169 (-22)) (b32 4405959 (-20))) (mkVec2 (b32 952225 (-17)) (b32 15232387 (-24))) (mkVec2 (b32 (-8862171) (-18)) (b32 (-5370885) (-16))) (b64 1501199275310215 (-54)) (b32 (-1) 0) (b32 (-1) 0) (b32 (-1) 0);
   mkResult (mkVec2 (b32 14511747 (-22)) (b32 8812631 (-21))) (mkVec2 (b32 7232039 (-20)) (b32 8894793 (-24))) (mkVec2 (b32 (-4999073) (-17)) (b32 (-6093721) (-16))) (b64 6405120270677973 (-56)) (b32 (-1) 0) (b32 (-1) 0) (b32 (-1) 0);
   mkResult (mkVec2 (b32 14590725 (-22)) (b32 4406305 (-20))) (mkVec2 (b32 13714787 (-21)) (b32 4258695 (-24))) (mkVec2 (b32 (-4258975) (-17)) (b32 (-13244957) (-17))) (b64 6805436234355681 (-56)) (b32 (-1) 0) (b32 (-1) 0) (b32 (-1) 0);
   mkResult (mkVec2 (b32 3661491 (-20)) (b32 8812191 (-21))) (mkVec2 (b32 13035373 (-21)) (b32 2174089 (-25))) (mkVec2 (b32 (-1415381) (-16)) (b32 (-3485827) (-15))) (b64 3602879701896397 (-55)) (b32 (-1) 0) (b32 (-1) 0) (b32 (-1) 0);
   mkResult (mkVec2 (b32 14669201 (-22)) (b32 8811939 (-21))) (mkVec2 (b32 12770649 (-21)) (b32 (-1339811) (-27))) (mkVec2 (b32 (-2109423) (-18)) (b32 (-859) (-3))) (b64 7405935400030157 (-56)) (b32 (-1) 0) (b32 (-1) 0) (b32 (-1) 0);
   mkResult (mkVec2 (b32 14679645 (-22)) (b32 550737 (-17))) (mkVec2 (b32 12654047 (-21)) (b32 (-11419083) (-28))) (mkVec2 (b32 (-1389143) (-19)) (b32 (-14190379) (-17))) (b64 7506023398148839 (-56)) (b32 (-1) 0) (b32 (-1) 0) (b32 (-1) 0)];
  TClear;
  TUpdate (mkInput EUp (mkVec2 (b32 15518925 (-22)) (b32 9227469 (-21))) (b64 3602879701896397 (-55)) (b32 (-1) 0) (b32 (-1) 0) (b32 (-1) 0));
  TExpect [mkResult (mkVec2 (b32 3521349 (-20)) (b32 8807661 (-21))) (mkVec2 (b32 4202441 (-19)) (b32 9464531 (-22))) (mkVec2 (b32 10033483 (-17)) (b32 (-10741613) (-20))) (b64 5146973061497539 (-56)) (b32 (-1) 0) (b32 (-1) 0) (b32 (-1) 0);
   mkResult (mkVec2 (b32 7128849 (-21)) (b32 8815945 (-21))) (mkVec2 (b32 8569047 (-20)) (b32 8105157 (-22))) (mkVec2 (b32 890359 (-14)) (b32 (-4676261) (-19))) (b64 1372526029636687 (-54)) (b32 (-1) 0) (b32 (-1) 0) (b32 (-1) 0);
   mkResult (mkVec2 (b32 14430251 (-22)) (b32 4412733 (-20))) (mkVec2 (b32 4354647 (-19)) (b32 214557 (-17))) (mkVec2 (b32 10296597 (-18)) (b32 (-12326535) (-19))) (b64 5833235175595957 (-56)) (b32 (-1) 0) (b32 (-1) 0) (b32 (-1) 0);
   mkResult (mkVec2 (b32 3651257 (-20)) (b32 4418259 (-20))) (mkVec2 (b32 4428923 (-19)) (b32 11052243 (-23))) (mkVec2 (b32 15126443 (-19)) (b32 (-6579159) (-17))) (b64 3088183116322583 (-55)) (b32 (-1) 0) (b32 (-1) 0) (b32 (-1) 0);
   mkResult (mkVec2 (b32 3688817 (-20)) (b32 8878251 (-21))) (mkVec2 (b32 4299497 (-19)) (b32 7436627 (-22))) (mkVec2 (b32 7781797 (-19)) (b32 (-9465155) (-18))) (b64 814937161211797 (-53)) (b32 (-1) 0) (b32 (-1) 0) (b32 (-1) 0);
   mkResult (mkVec2 (b32 3722235 (-20)) (b32 4465791 (-20))) (mkVec2 (b32 2049143 (-18)) (b32 10504215 (-22))) (mkVec2 (b32 10601405 (-24)) (b32 (-16189237) (-21))) (b64 6862628346743585 (-56)) (b32 (-1) 0) (b32 (-1) 0) (b32 (-1) 0);
   mkResult (mkVec2 (b32 7508475 (-21)) (b32 8985877 (-21))) (mkVec2 (b32 15620867 (-21)) (b32 3364419 (-20))) (mkVec2 (b32 (-13035163) (-20)) (b32 9882095 (-19))) (b64 3602879701896397 (-55)) (b32 (-1) 0) (b32 (-1) 0) (b32 (-1) 0);
   mkResult (mkVec2 (b32 15150707 (-22)) (b32 4522697 (-20))) (mkVec2 (b32 14447217 (-21)) (b32 15866507 (-22))) (mkVec2 (b32 (-14971227) (-18)) (b32 4345063 (-18))) (b64 7606111396267521 (-56)) (b32 (-1) 0) (b32 (-1) 0) (b32 (-1) 0);
   mkResult (mkVec2 (b32 7631767 (-21)) (b32 4548691 (-20))) (mkVec2 (b32 823549 (-17)) (b32 8672437 (-21))) (mkVec2 (b32 (-11508685) (-17)) (b32 10212501 (-19))) (b64 8006391331148211 (-56)) (b32 (-1) 0) (b32 (-1) 0) (b32 (-1) 0);
   mkResult (mkVec2 (b32 15354005 (-22)) (b32 9140269 (-21))) (mkVec2 (b32 11968719 (-21)) (b32 9077711 (-21))) (mkVec2 (b32 (-13531873) (-17)) (b32 4029861 (-17))) (b64 8406743323622939 (-56)) (b32 (-1) 0) (b32 (-1) 0) (b32 (-1) 0);
   mkResult (mkVec2 (b32 15422917 (-22)) (b32 4586891 (-20))) (mkVec2 (b32 10906575 (-21)) (b32 2311203 (-19))) (mkVec2 (b32 (-7106003) (-16)) (b32 2982301 (-16))) (b64 2201755814625907 (-54)) (b32 (-1) 0) (b32 (-1) 0) (b32 (-1) 0);
   mkResult (mkVec2 (b32 7736373 (-21)) (b32 9198633 (-21))) (mkVec2 (b32 10023841 (-21)) (b32 9247601 (-21))) (mkVec2 (b32 (-14034665) (-17)) (b32 7957499 (-17))) (b64 2301843812744589 (-54)) (b32 (-1) 0) (b32 (-1) 0) (b32 (-1) 0);
   mkResult (mkVec2 (b32 7753255 (-21)) (b32 9215997 (-21))) (mkVec2 (b32 4661801 (-20)) (b32 1142961 (-18))) (mkVec2 (b32 (-6676349) (-16)) (b32 9780383 (-17))) (b64 4803827592929523 (-55)) (b32 (-1) 0) (b32 (-1) 0) (b32 (-1) 0);
   mkResult (mkVec2 (b32 1940091 (-19)) (b32 1152925 (-18))) (mkVec2 (b32 9033713 (-21)) (b32 9093859 (-21))) (mkVec2 (b32 (-768317) (-13)) (b32 11072307 (-17))) (b64 4903915591048205 (-55)) (b32 (-1) 0) (b32 (-1) 0) (b32 (-1) 0)];
  TPredictFail].
Goal replay_test (mkParams (mkWobbleParams true (b64 5764607523034235 (-57)) (b32 2747269 (-21)) (b32 3019899 (-21))) (mkPositionParams (fdiv (b32 11 0) (b32 32400 0) : float32) (b32 72 0) (mkLoopParams true (b32 0 0) (b32 10 0) (b32 1 0) (b32 0 0) (b64 20 0) 10)) (mkSamplingParams (b64 180 0) (b32 8589935 (-33)) 20 100000 (b64 (-1) 0)) (mkStylusParams 20 true 10 (b64 6016809102166983 (-54))) PredStrokeEnd) steps_InputRateSlowerThanMinOutputRateNormalProjectionWithLoopMitigation = true.
Proof. vm_compute. reflexivity. Abort.

(** StrokeModelerTest.InputRateFasterThanMinOutputRate: 93 expected results. *)
Definition steps_InputRateFasterThanMinOutputRate : list tstep :=
  [TUpdate (mkInput EDown (mkVec2 (b32 5 0) (b32 (-3) 0)) (b64 2 0) (b32 (-1) 0) (b32 (-1) 0) (b32 (-1) 0));
  TExpect [mkResult (mkVec2 (b32 5 0) (b32 (-3) 0)) (mkVec2 (b32 0 0) (b32 0 0)) (mkVec2 (b32 0 0) (b32 0 0)) (b64 2 0) (b32 (-1) 0) (b32 (-1) 0) (b32 (-1) 0)];
  TPredict;
  TExpect [];
  TClear;
  TUpdate (mkInput EMove (mkVec2 (b32 5 0) (b32 (-6501171) (-21))) (b64 4511105626749447 (-51)) (b32 (-1) 0) (b32 (-1) 0) (b32 (-1) 0));
  TExpect [mkResult (mkVec2 (b32 5 0) (b32 (-12596753) (-22))) (mkVec2 (b32 0 0) (b32 (-16471871) (-24))) (mkVec2 (b32 0 0) (b32 (-9651657) (-15))) (b64 4511030566755657 (-51)) (b32 (-1) 0) (b32 (-1) 0) (b32 (-1) 0)];
  TPredict;
  TExpect [mkResult (mkVec2 (b32 5 0) (b32 (-12647085) (-22))) (mkVec2 (b32 0 0) (b32 (-9109609) (-22))) (mkVec2 (b32 0 0) (b32 (-14038761) (-16))) (b64 4523640645712295 (-51)) (b32 (-1) 0) (b32 (-1) 0) (b32 (-1) 0);
   mkResult (mkVec2 (b32 5 0) (b32 (-12709999) (-22))) (mkVec2 (b32 0 0) (b32 (-5638193) (-21))) (mkVec2 (b32 0 0) (b32 (-12188189) (-17))) (b64 1134006386171891 (-49)) (b32 (-1) 0) (b32 (-1) 0) (b32 (-1) 0);
   mkResult (mkVec2 (b32 5 0) (b32 (-3193543) (-20))) (mkVec2 (b32 0 0) (b32 (-11551533) (-22))) (mkVec2 (b32 0 0) (b32 (-6186179) (-19))) (b64 4548635623644201 (-51)) (b32 (-1) 0) (b32 (-1) 0) (b32 (-1) 0);
   mkResult (mkVec2 (b32 5 0) (b32 (-401041) (-17))) (mkVec2 (b32 0 0) (b32 (-10666115) (-22))) (mkVec2 (b32 0 0) (b32 2489503 (-16))) (b64 2280622851300419 (-50)) (b32 (-1) 0) (b32 (-1) 0) (b32 (-1) 0);
   mkResult (mkVec2 (b32 5 0) (b32 (-12884063) (-22))) (mkVec2 (b32 0 0) (b32 (-9165393) (-22))) (mkVec2 (b32 0 0) (b32 8441731 (-17))) (b64 4573630601576107 (-51)) (b32 (-1) 0) (b32 (-1) 0) (b32 (-1) 0);
   mkResult (mkVec2 (b32 5 0) (b32 (-12925587) (-22))) (mkVec2 (b32 0 0) (b32 (-14863775) (-23))) (mkVec2 (b32 0 0) (b32 9751901 (-17))) (b64 4586240680532745 (-51)) (b32 (-1) 0) (b32 (-1) 0) (b32 (-1) 0);
   mkResult (mkVec2 (b32 5 0) (b32 (-12957463) (-22))) (mkVec2 (b32 0 0) (b32 (-11431995) (-23))) (mkVec2 (b32 0 0) (b32 9651421 (-17))) (b64 4598625579508013 (-51)) (b32 (-1) 0) (b32 (-1) 0) (b32 (-1) 0);
   mkResult (mkVec2 (b32 5 0) (b32 (-3245133) (-20))) (mkVec2 (b32 0 0) (b32 (-8333243) (-23))) (mkVec2 (b32 0 0) (b32 4356879 (-16))) (b64 4611235658464651 (-51)) (b32 (-1) 0) (b32 (-1) 0) (b32 (-1) 0);
   mkResult (mkVec2 (b32 5 0) (b32 (-6498235) (-21))) (mkVec2 (b32 0 0) (b32 (-11433673) (-24))) (mkVec2 (b32 0 0) (b32 7359011 (-17))) (b64 288976284839995 (-47)) (b32 (-1) 0) (b32 (-1) 0) (b32 (-1) 0)];
  TClear;
  TUpdate (mkInput EMove (mkVec2 (b32 10433331 (-21)) (b32 (-13316915) (-22))) (b64 2259305813064199 (-50)) (b32 (-1) 0) (b32 (-1) 0) (b32 (-1) 0));
  TExpect [mkResult (mkVec2 (b32 5242041 (-20)) (b32 (-12630727) (-22))) (mkVec2 (b32 (-8237613) (-25)) (b32 (-5100693) (-21))) (mkVec2 (b32 (-603231) (-13)) (b32 (-14258137) (-15))) (b64 4518686686122187 (-51)) (b32 (-1) 0) (b32 (-1) 0) (b32 (-1) 0)];
  TPredict;
  TExpect [mkResult (mkVec2 (b32 10477791 (-21)) (b32 (-3181799) (-20))) (mkVec2 (b32 (-2277507) (-22)) (b32 (-4337749) (-20))) (mkVec2 (b32 (-14038781) (-18)) (b32 (-10053681) (-15))) (b64 283191974068591 (-47)) (b32 (-1) 0) (b32 (-1) 0) (b32 (-1) 0);
   mkResult (mkVec2 (b32 5234911 (-20)) (b32 (-12838345) (-22))) (mkVec2 (b32 (-11275967) (-24)) (b32 (-10031517) (-21))) (mkVec2 (b32 (-12188333) (-19)) (b32 (-1907037) (-14))) (b64 4543681664054093 (-51)) (b32 (-1) 0) (b32 (-1) 0) (b32 (-1) 0);
   mkResult (mkVec2 (b32 2615463 (-19)) (b32 (-12949075) (-22))) (mkVec2 (b32 (-11551113) (-24)) (b32 (-1241645) (-18))) (mkVec2 (b32 (-6186179) (-21)) (b32 8845577 (-20))) (b64 2278033281514681 (-50)) (b32 (-1) 0) (b32 (-1) 0) (b32 (-1) 0);
   mkResult (mkVec2 (b32 653407 (-17)) (b32 (-407765) (-17))) (mkVec2 (b32 (-5333477) (-23)) (b32 (-8971197) (-21))) (mkVec2 (b32 9958431 (-20)) (b32 10822379 (-17))) (b64 285542290124125 (-47)) (b32 (-1) 0) (b32 (-1) 0) (b32 (-1) 0);
   mkResult (mkVec2 (b32 10448011 (-21)) (b32 (-13132785) (-22))) (mkVec2 (b32 (-9165393) (-24)) (b32 (-3789239) (-20))) (mkVec2 (b32 8441771 (-19)) (b32 15668517 (-17))) (b64 4581061540961269 (-51)) (b32 (-1) 0) (b32 (-1) 0) (b32 (-1) 0);
   mkResult (mkVec2 (b32 5221489 (-20)) (b32 (-6599947) (-21))) (mkVec2 (b32 (-14864613) (-25)) (b32 (-12107697) (-22))) (mkVec2 (b32 9752019 (-19)) (b32 8575897 (-16))) (b64 2296835809958953 (-50)) (b32 (-1) 0) (b32 (-1) 0) (b32 (-1) 0);
   mkResult (mkVec2 (b32 5219497 (-20)) (b32 (-13251065) (-22))) (mkVec2 (b32 (-11431995) (-25)) (b32 (-9177557) (-22))) (mkVec2 (b32 9651565 (-19)) (b32 8241257 (-16))) (b64 4606281698874543 (-51)) (b32 (-1) 0) (b32 (-1) 0) (b32 (-1) 0);
   mkResult (mkVec2 (b32 10436057 (-21)) (b32 (-13287555) (-22))) (mkVec2 (b32 (-8334921) (-25)) (b32 (-13170115) (-23))) (mkVec2 (b32 4356781 (-18)) (b32 7291273 (-16))) (b64 1154666649462453 (-49)) (b32 (-1) 0) (b32 (-1) 0) (b32 (-1) 0);
   mkResult (mkVec2 (b32 5217085 (-20)) (b32 (-13312301) (-22))) (mkVec2 (b32 (-5717675) (-25)) (b32 (-8861725) (-23))) (mkVec2 (b32 14718337 (-20)) (b32 757307 (-13))) (b64 2315638338403225 (-50)) (b32 (-1) 0) (b32 (-1) 0) (b32 (-1) 0)];
  TClear;
  TUpdate (mkInput EMove (mkVec2 (b32 10276045 (-21)) (b32 (-13421773) (-22))) (b64 4526117625507349 (-51)) (b32 (-1) 0) (b32 (-1) 0) (b32 (-1) 0));
  TExpect [mkResult (mkVec2 (b32 10475903 (-21)) (b32 (-12682317) (-22))) (mkVec2 (b32 (-4866651) (-22)) (b32 (-15520603) (-22))) (mkVec2 (b32 (-8993577) (-15)) (b32 (-12466609) (-15))) (b64 1131529406376837 (-49)) (b32 (-1) 0) (b32 (-1) 0) (b32 (-1) 0)];
  TPredict;
  TExpect [mkResult (mkVec2 (b32 10449689 (-21)) (b32 (-12801435) (-22))) (mkVec2 (b32 (-4730965) (-21)) (b32 (-10705751) (-21))) (mkVec2 (b32 (-3230915) (-14)) (b32 (-8284127) (-15))) (b64 2269363852231993 (-50)) (b32 (-1) 0) (b32 (-1) 0) (b32 (-1) 0);
   mkResult (mkVec2 (b32 5209011 (-20)) (b32 (-6464471) (-21))) (mkVec2 (b32 (-11358595) (-22)) (b32 (-11499733) (-21))) (mkVec2 (b32 (-10669929) (-17)) (b32 (-8932819) (-17))) (b64 4551112603439255 (-51)) (b32 (-1) 0) (b32 (-1) 0) (b32 (-1) 0);
   mkResult (mkVec2 (b32 10386355 (-21)) (b32 (-13050577) (-22))) (mkVec2 (b32 (-11464291) (-22)) (b32 (-1366347) (-18))) (mkVec2 (b32 (-2374081) (-19)) (b32 200047 (-12))) (b64 1140930670598973 (-49)) (b32 (-1) 0) (b32 (-1) 0) (b32 (-1) 0);
   mkResult (mkVec2 (b32 10357205 (-21)) (b32 (-1644639) (-19))) (mkVec2 (b32 (-10485341) (-22)) (b32 (-9595729) (-21))) (mkVec2 (b32 344141 (-13)) (b32 1877513 (-14))) (b64 4576107581371161 (-51)) (b32 (-1) 0) (b32 (-1) 0) (b32 (-1) 0);
   mkResult (mkVec2 (b32 1291531 (-18)) (b32 (-13245193) (-22))) (mkVec2 (b32 (-8944773) (-22)) (b32 (-15844403) (-22))) (mkVec2 (b32 8665589 (-17)) (b32 9412883 (-16))) (b64 2294358830163899 (-50)) (b32 (-1) 0) (b32 (-1) 0) (b32 (-1) 0);
   mkResult (mkVec2 (b32 5156163 (-20)) (b32 (-13313979) (-22))) (mkVec2 (b32 (-1801873) (-20)) (b32 (-6197923) (-21))) (mkVec2 (b32 4886731 (-16)) (b32 4849441 (-15))) (b64 4601102559303067 (-51)) (b32 (-1) 0) (b32 (-1) 0) (b32 (-1) 0);
   mkResult (mkVec2 (b32 1287127 (-18)) (b32 (-6682575) (-21))) (mkVec2 (b32 (-11019275) (-23)) (b32 (-4600103) (-21))) (mkVec2 (b32 4774789 (-16)) (b32 4494387 (-15))) (b64 4613712638259705 (-51)) (b32 (-1) 0) (b32 (-1) 0) (b32 (-1) 0);
   mkResult (mkVec2 (b32 10285901 (-21)) (b32 (-13400801) (-22))) (mkVec2 (b32 (-7980083) (-23)) (b32 (-3223113) (-21))) (mkVec2 (b32 4273537 (-16)) (b32 15491059 (-17))) (b64 4626097537234973 (-51)) (b32 (-1) 0) (b32 (-1) 0) (b32 (-1) 0);
   mkResult (mkVec2 (b32 642397 (-17)) (b32 (-13424289) (-22))) (mkVec2 (b32 (-10863247) (-24)) (b32 (-2103863) (-21))) (mkVec2 (b32 1792177 (-15)) (b32 12590881 (-17))) (b64 4638707616191611 (-51)) (b32 (-1) 0) (b32 (-1) 0) (b32 (-1) 0)];
  TClear;
  TUpdate (mkInput EMove (mkVec2 (b32 5059379 (-20)) (b32 (-13421773) (-22))) (b64 1133405906221575 (-49)) (b32 (-1) 0) (b32 (-1) 0) (b32 (-1) 0));
  TExpect [mkResult (mkVec2 (b32 5229039 (-20)) (b32 (-6373035) (-21))) (mkVec2 (b32 (-2678063) (-20)) (b32 (-9527571) (-21))) (mkVec2 (b32 (-6850303) (-14)) (b32 (-8284127) (-15))) (b64 2266774282446255 (-50)) (b32 (-1) 0) (b32 (-1) 0) (b32 (-1) 0)];
  TPredict;
  TExpect [mkResult (mkVec2 (b32 650589 (-17)) (b32 (-12871061) (-22))) (mkVec2 (b32 (-8766305) (-21)) (b32 (-11246397) (-21))) (mkVec2 (b32 (-9590771) (-15)) (b32 (-9668651) (-16))) (b64 4546158643849147 (-51)) (b32 (-1) 0) (b32 (-1) 0) (b32 (-1) 0);
   mkResult (mkVec2 (b32 10353639 (-21)) (b32 (-12996051) (-22))) (mkVec2 (b32 (-10015369) (-21)) (b32 (-11255415) (-21))) (mkVec2 (b32 (-14052439) (-17)) (b32 (-1604531) (-21))) (b64 142454485713263 (-46)) (b32 (-1) 0) (b32 (-1) 0) (b32 (-1) 0);
   mkResult (mkVec2 (b32 1287363 (-18)) (b32 (-13109717) (-22))) (mkVec2 (b32 (-2463577) (-19)) (b32 (-10237457) (-21))) (mkVec2 (b32 14492369 (-20)) (b32 11451027 (-17))) (b64 4571153621781053 (-51)) (b32 (-1) 0) (b32 (-1) 0) (b32 (-1) 0);
   mkResult (mkVec2 (b32 5124915 (-20)) (b32 (-6603093) (-21))) (mkVec2 (b32 (-8861935) (-21)) (b32 (-4348025) (-20))) (mkVec2 (b32 2791293 (-15)) (b32 8670393 (-16))) (b64 4583763700737691 (-51)) (b32 (-1) 0) (b32 (-1) 0) (b32 (-1) 0);
   mkResult (mkVec2 (b32 10208307 (-21)) (b32 (-3320945) (-20))) (mkVec2 (b32 (-1865207) (-19)) (b32 (-3490395) (-20))) (mkVec2 (b32 15762443 (-17)) (b32 9649095 (-16))) (b64 71814821870515 (-45)) (b32 (-1) 0) (b32 (-1) 0) (b32 (-1) 0);
   mkResult (mkVec2 (b32 5087691 (-20)) (b32 (-1667865) (-19))) (mkVec2 (b32 (-5941861) (-21)) (b32 (-10633819) (-22))) (mkVec2 (b32 1067991 (-13)) (b32 4679559 (-15))) (b64 4608758678669597 (-51)) (b32 (-1) 0) (b32 (-1) 0) (b32 (-1) 0);
   mkResult (mkVec2 (b32 10150425 (-21)) (b32 (-6692851) (-21))) (mkVec2 (b32 (-1122553) (-19)) (b32 (-7670543) (-22))) (mkVec2 (b32 16329553 (-17)) (b32 8334305 (-16))) (b64 2310571788822433 (-50)) (b32 (-1) 0) (b32 (-1) 0) (b32 (-1) 0);
   mkResult (mkVec2 (b32 1266575 (-18)) (b32 (-13414223) (-22))) (mkVec2 (b32 (-12844637) (-23)) (b32 (-5195065) (-22))) (mkVec2 (b32 7195027 (-16)) (b32 13923503 (-17))) (b64 4633753656601503 (-51)) (b32 (-1) 0) (b32 (-1) 0) (b32 (-1) 0);
   mkResult (mkVec2 (b32 5062525 (-20)) (b32 (-13425967) (-22))) (mkVec2 (b32 (-5362837) (-22)) (b32 (-2108267) (-21))) (mkVec2 (b32 2979555 (-15)) (b32 2752679 (-15))) (b64 2320029348039911 (-50)) (b32 (-1) 0) (b32 (-1) 0) (b32 (-1) 0);
   mkResult (mkVec2 (b32 2530843 (-19)) (b32 (-13428903) (-22))) (mkVec2 (b32 (-2560413) (-21)) (b32 (-15987009) (-24))) (mkVec2 (b32 681617 (-13)) (b32 2471651 (-15))) (b64 2320817477974701 (-50)) (b32 (-1) 0) (b32 (-1) 0) (b32 (-1) 0)];
  TClear;
  TUpdate (mkInput EMove (mkVec2 (b32 19 (-2)) (b32 (-6763315) (-21))) (b64 4541129624265251 (-51)) (b32 (-1) 0) (b32 (-1) 0) (b32 (-1) 0));
  TExpect [mkResult (mkVec2 (b32 5214149 (-20)) (b32 (-6409945) (-21))) (mkVec2 (b32 (-4473225) (-20)) (b32 (-1384199) (-18))) (mkVec2 (b32 (-262961) (-9)) (b32 (-14494453) (-16))) (b64 141912646383095 (-46)) (b32 (-1) 0) (b32 (-1) 0) (b32 (-1) 0)];
  TPredict;
  TExpect [mkResult (mkVec2 (b32 5177973 (-20)) (b32 (-12957883) (-22))) (mkVec2 (b32 (-13006117) (-21)) (b32 (-3106983) (-19))) (mkVec2 (b32 (-11417931) (-15)) (b32 (-15236399) (-17))) (b64 4553589583234309 (-51)) (b32 (-1) 0) (b32 (-1) 0) (b32 (-1) 0);
   mkResult (mkVec2 (b32 2569221 (-19)) (b32 (-1636565) (-19))) (mkVec2 (b32 (-14259585) (-21)) (b32 (-12110843) (-21))) (mkVec2 (b32 (-14101171) (-17)) (b32 14274475 (-19))) (b64 2283099831095473 (-50)) (b32 (-1) 0) (b32 (-1) 0) (b32 (-1) 0);
   mkResult (mkVec2 (b32 10200547 (-21)) (b32 (-13212477) (-22))) (mkVec2 (b32 (-6857687) (-20)) (b32 (-10819417) (-21))) (mkVec2 (b32 191343 (-12)) (b32 7263591 (-16))) (b64 4578584561166215 (-51)) (b32 (-1) 0) (b32 (-1) 0) (b32 (-1) 0);
   mkResult (mkVec2 (b32 10133229 (-21)) (b32 (-3328285) (-20))) (mkVec2 (b32 (-12141881) (-21)) (b32 (-9061165) (-21))) (mkVec2 (b32 2212597 (-14)) (b32 618179 (-12))) (b64 1147798660030713 (-49)) (b32 (-1) 0) (b32 (-1) 0) (b32 (-1) 0);
   mkResult (mkVec2 (b32 10077025 (-21)) (b32 (-3348313) (-20))) (mkVec2 (b32 (-2523503) (-19)) (b32 (-3591163) (-20))) (mkVec2 (b32 5759579 (-15)) (b32 1321005 (-13))) (b64 4603579539098121 (-51)) (b32 (-1) 0) (b32 (-1) 0) (b32 (-1) 0);
   mkResult (mkVec2 (b32 10032985 (-21)) (b32 (-6726615) (-21))) (mkVec2 (b32 (-15895573) (-22)) (b32 (-2701027) (-20))) (mkVec2 (b32 12073219 (-16)) (b32 5006813 (-15))) (b64 2308094809027379 (-50)) (b32 (-1) 0) (b32 (-1) 0) (b32 (-1) 0);
   mkResult (mkVec2 (b32 4999925 (-20)) (b32 (-13495593) (-22))) (mkVec2 (b32 (-11874913) (-22)) (b32 (-15371285) (-23))) (mkVec2 (b32 5654053 (-15)) (b32 2192661 (-14))) (b64 1157199924252849 (-49)) (b32 (-1) 0) (b32 (-1) 0) (b32 (-1) 0);
   mkResult (mkVec2 (b32 9976571 (-21)) (b32 (-6762057) (-21))) (mkVec2 (b32 (-523921) (-18)) (b32 (-1279053) (-20))) (mkVec2 (b32 4910537 (-15)) (b32 14455013 (-17))) (b64 4641184595986665 (-51)) (b32 (-1) 0) (b32 (-1) 0) (b32 (-1) 0);
   mkResult (mkVec2 (b32 9966925 (-21)) (b32 (-6767719) (-21))) (mkVec2 (b32 (-1738539) (-20)) (b32 (-4112515) (-22))) (mkVec2 (b32 8036011 (-16)) (b32 5644609 (-16))) (b64 4647489635464983 (-51)) (b32 (-1) 0) (b32 (-1) 0) (b32 (-1) 0)];
  TClear;
  TUpdate (mkInput EMove (mkVec2 (b32 4928307 (-20)) (b32 (-13841203) (-22))) (b64 2274317811822101 (-50)) (b32 (-1) 0) (b32 (-1) 0) (b32 (-1) 0));
  TExpect [mkResult (mkVec2 (b32 1298373 (-18)) (b32 (-12909229) (-22))) (mkVec2 (b32 (-1551473) (-18)) (b32 (-13430581) (-21))) (mkVec2 (b32 (-8121891) (-14)) (b32 (-690491) (-11))) (b64 4548635623644201 (-51)) (b32 (-1) 0) (b32 (-1) 0) (b32 (-1) 0)];
  TPredict;
  TExpect [mkResult (mkVec2 (b32 5148613 (-20)) (b32 (-204433) (-16))) (mkVec2 (b32 (-16124163) (-21)) (b32 (-7841671) (-20))) (mkVec2 (b32 (-1305147) (-12)) (b32 (-6336001) (-15))) (b64 2280622851300419 (-50)) (b32 (-1) 0) (b32 (-1) 0) (b32 (-1) 0);
   mkResult (mkVec2 (b32 10203483 (-21)) (b32 (-13256937) (-22))) (mkVec2 (b32 (-2110731) (-18)) (b32 (-487791) (-16))) (mkVec2 (b32 (-4284075) (-16)) (b32 13333483 (-21))) (b64 4573630601576107 (-51)) (b32 (-1) 0) (b32 (-1) 0) (b32 (-1) 0);
   mkResult (mkVec2 (b32 10115613 (-21)) (b32 (-13414223) (-22))) (mkVec2 (b32 (-15807703) (-21)) (b32 (-7072855) (-20))) (mkVec2 (b32 6064341 (-16)) (b32 8232003 (-16))) (b64 4586240680532745 (-51)) (b32 (-1) 0) (b32 (-1) 0) (b32 (-1) 0);
   mkResult (mkVec2 (b32 5019743 (-20)) (b32 (-6773591) (-21))) (mkVec2 (b32 (-13723763) (-21)) (b32 (-11981659) (-21))) (mkVec2 (b32 11722123 (-16)) (b32 12172827 (-16))) (b64 4598625579508013 (-51)) (b32 (-1) 0) (b32 (-1) 0) (b32 (-1) 0);
   mkResult (mkVec2 (b32 9976991 (-21)) (b32 (-6826859) (-21))) (mkVec2 (b32 (-11225845) (-21)) (b32 (-9594051) (-21))) (mkVec2 (b32 14051095 (-16)) (b32 13430699 (-16))) (b64 4611235658464651 (-51)) (b32 (-1) 0) (b32 (-1) 0) (b32 (-1) 0);
   mkResult (mkVec2 (b32 2482189 (-19)) (b32 (-3433667) (-20))) (mkVec2 (b32 (-1088317) (-18)) (b32 (-7289281) (-21))) (mkVec2 (b32 3542791 (-14)) (b32 12964489 (-16))) (b64 288976284839995 (-47)) (b32 (-1) 0) (b32 (-1) 0) (b32 (-1) 0);
   mkResult (mkVec2 (b32 9893105 (-21)) (b32 (-13792969) (-22))) (mkVec2 (b32 (-1600861) (-19)) (b32 (-5243719) (-21))) (mkVec2 (b32 3238735 (-14)) (b32 11506169 (-16))) (b64 4636230636396557 (-51)) (b32 (-1) 0) (b32 (-1) 0) (b32 (-1) 0);
   mkResult (mkVec2 (b32 4934179 (-20)) (b32 (-13832395) (-22))) (mkVec2 (b32 (-4439461) (-21)) (b32 (-14159131) (-23))) (mkVec2 (b32 2761869 (-14)) (b32 4792559 (-15))) (b64 2324307767685913 (-50)) (b32 (-1) 0) (b32 (-1) 0) (b32 (-1) 0);
   mkResult (mkVec2 (b32 4931453 (-20)) (b32 (-13841203) (-22))) (mkVec2 (b32 (-16175753) (-23)) (b32 (-6407219) (-22))) (mkVec2 (b32 8898609 (-16)) (b32 945143 (-13))) (b64 4651768055110985 (-51)) (b32 (-1) 0) (b32 (-1) 0) (b32 (-1) 0);
   mkResult (mkVec2 (b32 2465045 (-19)) (b32 (-6922699) (-21))) (mkVec2 (b32 (-7709131) (-22)) (b32 (-3043387) (-21))) (mkVec2 (b32 4262881 (-15)) (b32 14429179 (-17))) (b64 4653344314980565 (-51)) (b32 (-1) 0) (b32 (-1) 0) (b32 (-1) 0)];
  TClear;
  TUpdate (mkInput EMove (mkVec2 (b32 4902093 (-20)) (b32 (-7130317) (-21))) (b64 4556141623023153 (-51)) (b32 (-1) 0) (b32 (-1) 0) (b32 (-1) 0));
  TExpect [mkResult (mkVec2 (b32 10336443 (-21)) (b32 (-3255409) (-20))) (mkVec2 (b32 (-3788505) (-19)) (b32 (-4210295) (-19))) (mkVec2 (b32 (-12854057) (-15)) (b32 (-15987681) (-15))) (b64 2278033281514681 (-50)) (b32 (-1) 0) (b32 (-1) 0) (b32 (-1) 0)];
  TPredict;
  TExpect [mkResult (mkVec2 (b32 10237457 (-21)) (b32 (-13246451) (-22))) (mkVec2 (b32 (-4450209) (-19)) (b32 (-2530345) (-18))) (mkVec2 (b32 (-465271) (-11)) (b32 (-9567037) (-15))) (b64 285542290124125 (-47)) (b32 (-1) 0) (b32 (-1) 0) (b32 (-1) 0);
   mkResult (mkVec2 (b32 10138681 (-21)) (b32 (-6736891) (-21))) (mkVec2 (b32 (-8885423) (-20)) (b32 (-10221729) (-20))) (mkVec2 (b32 1356333 (-19)) (b32 (-2257925) (-17))) (b64 4581061540961269 (-51)) (b32 (-1) 0) (b32 (-1) 0) (b32 (-1) 0);
   mkResult (mkVec2 (b32 10049133 (-21)) (b32 (-1710175) (-19))) (mkVec2 (b32 (-16137165) (-21)) (b32 (-4676387) (-19))) (mkVec2 (b32 4594503 (-15)) (b32 4888363 (-15))) (b64 2296835809958953 (-50)) (b32 (-1) 0) (b32 (-1) 0) (b32 (-1) 0);
   mkResult (mkVec2 (b32 4986503 (-20)) (b32 (-13858819) (-22))) (mkVec2 (b32 (-13689999) (-21)) (b32 (-15962053) (-21))) (mkVec2 (b32 13765365 (-16)) (b32 3857839 (-14))) (b64 4606281698874543 (-51)) (b32 (-1) 0) (b32 (-1) 0) (b32 (-1) 0);
   mkResult (mkVec2 (b32 9911979 (-21)) (b32 (-14001845) (-22))) (mkVec2 (b32 (-10977123) (-21)) (b32 (-12864979) (-21))) (mkVec2 (b32 1907467 (-13)) (b32 1088829 (-12))) (b64 1154666649462453 (-49)) (b32 (-1) 0) (b32 (-1) 0) (b32 (-1) 0);
   mkResult (mkVec2 (b32 308301 (-16)) (b32 (-14110897) (-22))) (mkVec2 (b32 (-16702977) (-22)) (b32 (-9837111) (-21))) (mkVec2 (b32 14769147 (-16)) (b32 8515715 (-15))) (b64 2315638338403225 (-50)) (b32 (-1) 0) (b32 (-1) 0) (b32 (-1) 0);
   mkResult (mkVec2 (b32 9832287 (-21)) (b32 (-14190169) (-22))) (mkVec2 (b32 (-6016939) (-21)) (b32 (-14252245) (-22))) (mkVec2 (b32 13132117 (-16)) (b32 7624619 (-15))) (b64 2321830787890859 (-50)) (b32 (-1) 0) (b32 (-1) 0) (b32 (-1) 0);
   mkResult (mkVec2 (b32 4904819 (-20)) (b32 (-3561069) (-20))) (mkVec2 (b32 (-254319) (-17)) (b32 (-4851761) (-21))) (mkVec2 (b32 10956073 (-16)) (b32 12793623 (-16))) (b64 1164067913684589 (-49)) (b32 (-1) 0) (b32 (-1) 0) (b32 (-1) 0);
   mkResult (mkVec2 (b32 9804605 (-21)) (b32 (-14256439) (-22))) (mkVec2 (b32 (-14737945) (-23)) (b32 (-2200227) (-20))) (mkVec2 (b32 4327211 (-15)) (b32 10157215 (-16))) (b64 4659424174477515 (-51)) (b32 (-1) 0) (b32 (-1) 0) (b32 (-1) 0)];
  TClear;
  TUpdate (mkInput EMove (mkVec2 (b32 4902093 (-20)) (b32 (-7392461) (-21))) (b64 570455952800263 (-48)) (b32 (-1) 0) (b32 (-1) 0) (b32 (-1) 0));
  TExpect [mkResult (mkVec2 (b32 10280659 (-21)) (b32 (-6582331) (-21))) (mkVec2 (b32 (-8371097) (-20)) (b32 (-10727981) (-20))) (mkVec2 (b32 (-465271) (-11)) (b32 (-10815809) (-14))) (b64 1140930670598973 (-49)) (b32 (-1) 0) (b32 (-1) 0) (b32 (-1) 0)];
  TPredict;
  TExpect [mkResult (mkVec2 (b32 10181463 (-21)) (b32 (-3363727) (-20))) (mkVec2 (b32 (-2230059) (-18)) (b32 (-13065467) (-20))) (mkVec2 (b32 (-12357219) (-17)) (b32 (-3287121) (-13))) (b64 4576107581371161 (-51)) (b32 (-1) 0) (b32 (-1) 0) (b32 (-1) 0);
   mkResult (mkVec2 (b32 10087721 (-21)) (b32 (-13750187) (-22))) (mkVec2 (b32 (-8438835) (-20)) (b32 (-13280215) (-20))) (mkVec2 (b32 10831659 (-17)) (b32 (-9663047) (-18))) (b64 2294358830163899 (-50)) (b32 (-1) 0) (b32 (-1) 0) (b32 (-1) 0);
   mkResult (mkVec2 (b32 5002861 (-20)) (b32 (-14021139) (-22))) (mkVec2 (b32 (-3691407) (-19)) (b32 (-12201755) (-20))) (mkVec2 (b32 11880137 (-16)) (b32 3033147 (-14))) (b64 4601102559303067 (-51)) (b32 (-1) 0) (b32 (-1) 0) (b32 (-1) 0);
   mkResult (mkVec2 (b32 4969097 (-20)) (b32 (-14253503) (-22))) (mkVec2 (b32 (-6078071) (-20)) (b32 (-10445495) (-20))) (mkVec2 (b32 1834845 (-13)) (b32 2469833 (-13))) (b64 4613712638259705 (-51)) (b32 (-1) 0) (b32 (-1) 0) (b32 (-1) 0);
   mkResult (mkVec2 (b32 9885345 (-21)) (b32 (-14440989) (-22))) (mkVec2 (b32 (-4742709) (-20)) (b32 (-8442085) (-20))) (mkVec2 (b32 15023453 (-16)) (b32 2817255 (-13))) (b64 4626097537234973 (-51)) (b32 (-1) 0) (b32 (-1) 0) (b32 (-1) 0);
   mkResult (mkVec2 (b32 4923169 (-20)) (b32 (-14584853) (-22))) (mkVec2 (b32 (-1755159) (-19)) (b32 (-6472545) (-20))) (mkVec2 (b32 13864495 (-16)) (b32 11078389 (-15))) (b64 4638707616191611 (-51)) (b32 (-1) 0) (b32 (-1) 0) (b32 (-1) 0);
   mkResult (mkVec2 (b32 9819075 (-21)) (b32 (-14689291) (-22))) (mkVec2 (b32 (-4903351) (-21)) (b32 (-1175611) (-18))) (mkVec2 (b32 5954375 (-15)) (b32 9956875 (-15))) (b64 581414711893531 (-48)) (b32 (-1) 0) (b32 (-1) 0) (b32 (-1) 0);
   mkResult (mkVec2 (b32 9801459 (-21)) (b32 (-14760595) (-22))) (mkVec2 (b32 (-12749845) (-23)) (b32 (-12851767) (-22))) (mkVec2 (b32 2413165 (-14)) (b32 16757575 (-16))) (b64 4663702594123517 (-51)) (b32 (-1) 0) (b32 (-1) 0) (b32 (-1) 0);
   mkResult (mkVec2 (b32 9797475 (-21)) (b32 (-1847119) (-19))) (mkVec2 (b32 (-11430317) (-23)) (b32 (-5832809) (-21))) (mkVec2 (b32 7421539 (-16)) (b32 13340475 (-16))) (b64 1166713778465669 (-49)) (b32 (-1) 0) (b32 (-1) 0) (b32 (-1) 0)];
  TClear;
  TUpdate (mkInput EUp (mkVec2 (b32 4928307 (-20)) (b32 (-7549747) (-21))) (b64 4571153621781055 (-51)) (b32 (-1) 0) (b32 (-1) 0) (b32 (-1) 0));
  TExpect [mkResult (mkVec2 (b32 10224245 (-21)) (b32 (-3334157) (-20))) (mkVec2 (b32 (-8443239) (-20)) (b32 (-12902623) (-20))) (mkVec2 (b32 (-10822825) (-19)) (b32 (-10193609) (-14))) (b64 4571153621781053 (-51)) (b32 (-1) 0) (b32 (-1) 0) (b32 (-1) 0);
   mkResult (mkVec2 (b32 10134487 (-21)) (b32 (-13668817) (-22))) (mkVec2 (b32 (-8074035) (-20)) (b32 (-3738357) (-18))) (mkVec2 (b32 16611541 (-18)) (b32 (-11535525) (-15))) (b64 4583763700737691 (-51)) (b32 (-1) 0) (b32 (-1) 0) (b32 (-1) 0);
   mkResult (mkVec2 (b32 39279 (-13)) (b32 (-6999245) (-21))) (mkVec2 (b32 (-14237145) (-21)) (b32 (-14824453) (-20))) (mkVec2 (b32 10749313 (-16)) (b32 11605115 (-19))) (b64 71814821870515 (-45)) (b32 (-1) 0) (b32 (-1) 0) (b32 (-1) 0);
   mkResult (mkVec2 (b32 9989993 (-21)) (b32 (-14296285) (-22))) (mkVec2 (b32 (-5898135) (-20)) (b32 (-6699719) (-19))) (mkVec2 (b32 13729923 (-16)) (b32 16031737 (-16))) (b64 4608758678669597 (-51)) (b32 (-1) 0) (b32 (-1) 0) (b32 (-1) 0);
   mkResult (mkVec2 (b32 9938403 (-21)) (b32 (-14547943) (-22))) (mkVec2 (b32 (-4629673) (-20)) (b32 (-5663097) (-19))) (mkVec2 (b32 14270149 (-16)) (b32 11661479 (-15))) (b64 2310571788822433 (-50)) (b32 (-1) 0) (b32 (-1) 0) (b32 (-1) 0);
   mkResult (mkVec2 (b32 9900235 (-21)) (b32 (-14748851) (-22))) (mkVec2 (b32 (-1723859) (-19)) (b32 (-9052671) (-20))) (mkVec2 (b32 13296999 (-16)) (b32 3197177 (-13))) (b64 4633753656601503 (-51)) (b32 (-1) 0) (b32 (-1) 0) (b32 (-1) 0);
   mkResult (mkVec2 (b32 4936591 (-20)) (b32 (-14901523) (-22))) (mkVec2 (b32 (-4850293) (-21)) (b32 (-13731103) (-21))) (mkVec2 (b32 11504281 (-16)) (b32 12302441 (-15))) (b64 1161534638894193 (-49)) (b32 (-1) 0) (b32 (-1) 0) (b32 (-1) 0);
   mkResult (mkVec2 (b32 4927783 (-20)) (b32 (-15010995) (-22))) (mkVec2 (b32 (-6364437) (-22)) (b32 (-2464573) (-19))) (mkVec2 (b32 4691411 (-15)) (b32 5446143 (-14))) (b64 2329374317266705 (-50)) (b32 (-1) 0) (b32 (-1) 0) (b32 (-1) 0);
   mkResult (mkVec2 (b32 1230635 (-18)) (b32 (-7542407) (-21))) (mkVec2 (b32 (-3784101) (-22)) (b32 (-13277069) (-22))) (mkVec2 (b32 7256965 (-16)) (b32 9055991 (-15))) (b64 2335566766754339 (-50)) (b32 (-1) 0) (b32 (-1) 0) (b32 (-1) 0);
   mkResult (mkVec2 (b32 9844451 (-21)) (b32 (-3772357) (-20))) (mkVec2 (b32 (-14663287) (-24)) (b32 (-3239995) (-20))) (mkVec2 (b32 5321759 (-16)) (b32 891367 (-12))) (b64 4672034253434153 (-51)) (b32 (-1) 0) (b32 (-1) 0) (b32 (-1) 0)];
  TPredictFail].
Goal replay_test (mkParams (mkWobbleParams true (b64 5764607523034235 (-57)) (b32 2747269 (-21)) (b32 3019899 (-21))) (mkPositionParams (fdiv (b32 11 0) (b32 32400 0) : float32) (b32 72 0) (mkLoopParams false (b32 (-1) 0) (b32 (-1) 0) (b32 (-1) 0) (b32 (-1) 0) (b64 0 0) (-1))) (mkSamplingParams (b64 180 0) (b32 8589935 (-33)) 20 100000 (b64 (-1) 0)) (mkStylusParams 20 false (-1) (b64 (-1) 0)) PredStrokeEnd) steps_InputRateFasterThanMinOutputRate = true.
Proof. vm_compute. reflexivity. Abort.

(** StrokeModelerTest.WobbleSmoothed: 17 expected results. *)
Definition steps_WobbleSmoothed : list tstep :=
  [TUpdate (mkInput EDown (mkVec2 (b32 (-6) 0) (b32 (-2) 0)) (b64 4 0) (b32 (-1) 0) (b32 (-1) 0) (b32 (-1) 0));
  TExpect [mkResult (mkVec2 (b32 (-6) 0) (b32 (-2) 0)) (mkVec2 (b32 0 0) (b32 0 0)) (mkVec2 (b32 0 0) (b32 0 0)) (b64 4 0) (b32 (-1) 0) (b32 (-1) 0) (b32 (-1) 0)];
  TClear;
  TUpdate (mkInput EMove (mkVec2 (b32 (-12624855) (-21)) (b32 (-2) 0)) (b64 282650134738423 (-46)) (b32 (-1) 0) (b32 (-1) 0) (b32 (-1) 0));
  TExpect [mkResult (mkVec2 (b32 (-12583541) (-21)) (b32 (-2) 0)) (mkVec2 (b32 (-16508781) (-28)) (b32 0 0)) (mkVec2 (b32 (-241297) (-14)) (b32 0 0)) (b64 4508328406979235 (-50)) (b32 (-1) 0) (b32 (-1) 0) (b32 (-1) 0);
   mkResult (mkVec2 (b32 (-12584799) (-21)) (b32 (-2) 0)) (mkVec2 (b32 (-10925323) (-26)) (b32 0 0)) (mkVec2 (b32 (-3181445) (-17)) (b32 0 0)) (b64 2256528593293987 (-49)) (b32 (-1) 0) (b32 (-1) 0) (b32 (-1) 0);
   mkResult (mkVec2 (b32 (-3146829) (-19)) (b32 (-2) 0)) (mkVec2 (b32 (-9623411) (-25)) (b32 0 0)) (mkVec2 (b32 (-1946393) (-16)) (b32 0 0)) (b64 4517673376206029 (-50)) (b32 (-1) 0) (b32 (-1) 0) (b32 (-1) 0);
   mkResult (mkVec2 (b32 (-12591091) (-21)) (b32 (-2) 0)) (mkVec2 (b32 (-881433) (-21)) (b32 0 0)) (mkVec2 (b32 (-16762955) (-19)) (b32 0 0)) (b64 282650134738423 (-46)) (b32 (-1) 0) (b32 (-1) 0) (b32 (-1) 0)];
  TClear;
  TUpdate (mkInput EMove (mkVec2 (b32 (-12624855) (-21)) (b32 (-4236247) (-21))) (b64 141912646383095 (-45)) (b32 (-1) 0) (b32 (-1) 0) (b32 (-1) 0));
  TExpect [mkResult (mkVec2 (b32 (-12595285) (-21)) (b32 (-8389027) (-22))) (mkVec2 (b32 (-2064017) (-22)) (b32 (-16481937) (-29))) (mkVec2 (b32 (-2253547) (-17)) (b32 (-241297) (-15))) (b64 4527130935423507 (-50)) (b32 (-1) 0) (b32 (-1) 0) (b32 (-1) 0);
   mkResult (mkVec2 (b32 (-12599899) (-21)) (b32 (-8390705) (-22))) (mkVec2 (b32 (-8673821) (-24)) (b32 (-10925323) (-27))) (mkVec2 (b32 (-12526079) (-21)) (b32 (-6362497) (-19))) (b64 2265929857516123 (-49)) (b32 (-1) 0) (b32 (-1) 0) (b32 (-1) 0);
   mkResult (mkVec2 (b32 (-12604303) (-21)) (b32 (-4196401) (-21))) (mkVec2 (b32 (-2130287) (-22)) (b32 (-9623411) (-26))) (mkVec2 (b32 9146519 (-22)) (b32 (-3892655) (-18))) (b64 4536475904650301 (-50)) (b32 (-1) 0) (b32 (-1) 0) (b32 (-1) 0);
   mkResult (mkVec2 (b32 (-12608497) (-21)) (b32 (-8396577) (-22))) (mkVec2 (b32 (-3988783) (-23)) (b32 (-3524893) (-24))) (mkVec2 (b32 2037121 (-18)) (b32 (-2095317) (-17))) (b64 141912646383095 (-45)) (b32 (-1) 0) (b32 (-1) 0) (b32 (-1) 0)];
  TClear;
  TUpdate (mkInput EMove (mkVec2 (b32 (-6333399) (-20)) (b32 (-4236247) (-21))) (b64 285000450793957 (-46)) (b32 (-1) 0) (b32 (-1) 0) (b32 (-1) 0));
  TExpect [mkResult (mkVec2 (b32 (-6306241) (-20)) (b32 (-8401191) (-22))) (mkVec2 (b32 (-15062585) (-25)) (b32 (-8600001) (-25))) (mkVec2 (b32 13365779 (-21)) (b32 (-11587499) (-20))) (b64 4545933463867779 (-50)) (b32 (-1) 0) (b32 (-1) 0) (b32 (-1) 0);
   mkResult (mkVec2 (b32 (-12616257) (-21)) (b32 (-525389) (-18))) (mkVec2 (b32 (-14351231) (-25)) (b32 (-4791573) (-24))) (mkVec2 (b32 10626269 (-21)) (b32 (-3686531) (-19))) (b64 2275331121738259 (-49)) (b32 (-1) 0) (b32 (-1) 0) (b32 (-1) 0);
   mkResult (mkVec2 (b32 (-6309911) (-20)) (b32 (-8411677) (-22))) (mkVec2 (b32 (-13807649) (-25)) (b32 (-1265841) (-22))) (mkVec2 (b32 8168407 (-21)) (b32 (-2023909) (-19))) (b64 1138819608273643 (-48)) (b32 (-1) 0) (b32 (-1) 0) (b32 (-1) 0);
   mkResult (mkVec2 (b32 (-12623387) (-21)) (b32 (-4208355) (-21))) (mkVec2 (b32 (-1675205) (-22)) (b32 (-5164027) (-24))) (mkVec2 (b32 12061979 (-22)) (b32 (-3027239) (-21))) (b64 4560007212703311 (-50)) (b32 (-1) 0) (b32 (-1) 0) (b32 (-1) 0)];
  TClear;
  TUpdate (mkInput EMove (mkVec2 (b32 (-6333399) (-20)) (b32 (-2139095) (-20))) (b64 71543902205431 (-44)) (b32 (-1) 0) (b32 (-1) 0) (b32 (-1) 0));
  TExpect [mkResult (mkVec2 (b32 (-6313371) (-20)) (b32 (-8423001) (-22))) (mkVec2 (b32 (-13119783) (-25)) (b32 (-5657277) (-24))) (mkVec2 (b32 8448167 (-22)) (b32 (-3692403) (-19))) (b64 2282367996156025 (-49)) (b32 (-1) 0) (b32 (-1) 0) (b32 (-1) 0);
   mkResult (mkVec2 (b32 (-6315049) (-20)) (b32 (-526857) (-18))) (mkVec2 (b32 (-12938589) (-25)) (b32 (-3199415) (-23))) (mkVec2 (b32 686293 (-19)) (b32 (-5556247) (-19))) (b64 2284732385960395 (-49)) (b32 (-1) 0) (b32 (-1) 0) (b32 (-1) 0);
   mkResult (mkVec2 (b32 (-12633453) (-21)) (b32 (-4218631) (-21))) (mkVec2 (b32 (-6417285) (-24)) (b32 (-14555913) (-25))) (mkVec2 (b32 3133145 (-22)) (b32 (-6574519) (-19))) (b64 1143520240384711 (-48)) (b32 (-1) 0) (b32 (-1) 0) (b32 (-1) 0);
   mkResult (mkVec2 (b32 (-12636809) (-21)) (b32 (-8445651) (-22))) (mkVec2 (b32 (-6393797) (-24)) (b32 (-16411473) (-25))) (mkVec2 (b32 10650177 (-25)) (b32 (-13898141) (-20))) (b64 4578809741147583 (-50)) (b32 (-1) 0) (b32 (-1) 0) (b32 (-1) 0)]].
Goal replay_test (mkParams (mkWobbleParams true (b64 5764607523034235 (-57)) (b32 2747269 (-21)) (b32 3019899 (-21))) (mkPositionParams (fdiv (b32 11 0) (b32 32400 0) : float32) (b32 72 0) (mkLoopParams false (b32 (-1) 0) (b32 (-1) 0) (b32 (-1) 0) (b32 (-1) 0) (b64 0 0) (-1))) (mkSamplingParams (b64 180 0) (b32 8589935 (-33)) 20 100000 (b64 (-1) 0)) (mkStylusParams 20 false (-1) (b64 (-1) 0)) PredStrokeEnd) steps_WobbleSmoothed = true.
Proof. vm_compute. reflexivity. Abort.

(** StrokeModelerTest.WobbleNotSmoothedIfNotEnabled: 17 expected results. *)
Definition steps_WobbleNotSmoothedIfNotEnabled : list tstep :=
  [TUpdate (mkInput EDown (mkVec2 (b32 (-6) 0) (b32 (-2) 0)) (b64 4 0) (b32 (-1) 0) (b32 (-1) 0) (b32 (-1) 0));
  TExpect [mkResult (mkVec2 (b32 (-6) 0) (b32 (-2) 0)) (mkVec2 (b32 0 0) (b32 0 0)) (mkVec2 (b32 0 0) (b32 0 0)) (b64 4 0) (b32 (-1) 0) (b32 (-1) 0) (b32 (-1) 0)];
  TClear;
  TUpdate (mkInput EMove (mkVec2 (b32 (-12624855) (-21)) (b32 (-2) 0)) (b64 282650134738423 (-46)) (b32 (-1) 0) (b32 (-1) 0) (b32 (-1) 0));
  TExpect [mkResult (mkVec2 (b32 (-12583541) (-21)) (b32 (-2) 0)) (mkVec2 (b32 (-16508781) (-28)) (b32 0 0)) (mkVec2 (b32 (-241297) (-14)) (b32 0 0)) (b64 4508328406979235 (-50)) (b32 (-1) 0) (b32 (-1) 0) (b32 (-1) 0);
   mkResult (mkVec2 (b32 (-12584799) (-21)) (b32 (-2) 0)) (mkVec2 (b32 (-10925323) (-26)) (b32 0 0)) (mkVec2 (b32 (-3181445) (-17)) (b32 0 0)) (b64 2256528593293987 (-49)) (b32 (-1) 0) (b32 (-1) 0) (b32 (-1) 0);
   mkResult (mkVec2 (b32 (-3146829) (-19)) (b32 (-2) 0)) (mkVec2 (b32 (-9623411) (-25)) (b32 0 0)) (mkVec2 (b32 (-1946393) (-16)) (b32 0 0)) (b64 4517673376206029 (-50)) (b32 (-1) 0) (b32 (-1) 0) (b32 (-1) 0);
   mkResult (mkVec2 (b32 (-12591091) (-21)) (b32 (-2) 0)) (mkVec2 (b32 (-881433) (-21)) (b32 0 0)) (mkVec2 (b32 (-16762955) (-19)) (b32 0 0)) (b64 282650134738423 (-46)) (b32 (-1) 0) (b32 (-1) 0) (b32 (-1) 0)];
  TClear;
  TUpdate (mkInput EMove (mkVec2 (b32 (-12624855) (-21)) (b32 (-4236247) (-21))) (b64 141912646383095 (-45)) (b32 (-1) 0) (b32 (-1) 0) (b32 (-1) 0));
  TExpect [mkResult (mkVec2 (b32 (-12595285) (-21)) (b32 (-4194933) (-21))) (mkVec2 (b32 (-2064017) (-22)) (b32 (-16508781) (-28))) (mkVec2 (b32 (-2253547) (-17)) (b32 (-241297) (-14))) (b64 4527130935423507 (-50)) (b32 (-1) 0) (b32 (-1) 0) (b32 (-1) 0);
   mkResult (mkVec2 (b32 (-12599899) (-21)) (b32 (-8392383) (-22))) (mkVec2 (b32 (-8673821) (-24)) (b32 (-10925323) (-26))) (mkVec2 (b32 (-12526079) (-21)) (b32 (-6362523) (-18))) (b64 2265929857516123 (-49)) (b32 (-1) 0) (b32 (-1) 0) (b32 (-1) 0);
   mkResult (mkVec2 (b32 (-12604303) (-21)) (b32 (-1049677) (-19))) (mkVec2 (b32 (-2130287) (-22)) (b32 (-9623411) (-25))) (mkVec2 (b32 9146519 (-22)) (b32 (-7785677) (-18))) (b64 4536475904650301 (-50)) (b32 (-1) 0) (b32 (-1) 0) (b32 (-1) 0);
   mkResult (mkVec2 (b32 (-12608497) (-21)) (b32 (-4202483) (-21))) (mkVec2 (b32 (-3988783) (-23)) (b32 (-881433) (-21))) (mkVec2 (b32 2037121 (-18)) (b32 (-8381373) (-18))) (b64 141912646383095 (-45)) (b32 (-1) 0) (b32 (-1) 0) (b32 (-1) 0)];
  TClear;
  TUpdate (mkInput EMove (mkVec2 (b32 (-6333399) (-20)) (b32 (-4236247) (-21))) (b64 285000450793957 (-46)) (b32 (-1) 0) (b32 (-1) 0) (b32 (-1) 0));
  TExpect [mkResult (mkVec2 (b32 (-12612901) (-21)) (b32 (-4206677) (-21))) (mkVec2 (b32 (-4109579) (-23)) (b32 (-2064017) (-22))) (mkVec2 (b32 (-7225947) (-21)) (b32 (-9014031) (-19))) (b64 4545933463867779 (-50)) (b32 (-1) 0) (b32 (-1) 0) (b32 (-1) 0);
   mkResult (mkVec2 (b32 (-12617515) (-21)) (b32 (-4211291) (-21))) (mkVec2 (b32 (-8997621) (-24)) (b32 (-8673821) (-24))) (mkVec2 (b32 (-5825993) (-19)) (b32 (-1565891) (-18))) (b64 2275331121738259 (-49)) (b32 (-1) 0) (b32 (-1) 0) (b32 (-1) 0);
   mkResult (mkVec2 (b32 (-6311379) (-20)) (b32 (-4215695) (-21))) (mkVec2 (b32 (-2527907) (-22)) (b32 (-2130287) (-22))) (mkVec2 (b32 (-4169479) (-18)) (b32 2286315 (-20))) (b64 1138819608273643 (-48)) (b32 (-1) 0) (b32 (-1) 0) (b32 (-1) 0);
   mkResult (mkVec2 (b32 (-6314315) (-20)) (b32 (-8439779) (-22))) (mkVec2 (b32 (-2850449) (-22)) (b32 (-3988783) (-23))) (mkVec2 (b32 (-1208497) (-16)) (b32 16296549 (-21))) (b64 4560007212703311 (-50)) (b32 (-1) 0) (b32 (-1) 0) (b32 (-1) 0)];
  TClear;
  TUpdate (mkInput EMove (mkVec2 (b32 (-6333399) (-20)) (b32 (-2139095) (-20))) (b64 71543902205431 (-44)) (b32 (-1) 0) (b32 (-1) 0) (b32 (-1) 0));
  TExpect [mkResult (mkVec2 (b32 (-12634921) (-21)) (b32 (-8448587) (-22))) (mkVec2 (b32 (-11720563) (-24)) (b32 (-4109579) (-23))) (mkVec2 (b32 (-9518763) (-21)) (b32 (-14452733) (-22))) (b64 2282367996156025 (-49)) (b32 (-1) 0) (b32 (-1) 0) (b32 (-1) 0);
   mkResult (mkVec2 (b32 (-12640793) (-21)) (b32 (-4228907) (-21))) (mkVec2 (b32 (-5670699) (-23)) (b32 (-8997621) (-24))) (mkVec2 (b32 11359853 (-21)) (b32 (-11652825) (-20))) (b64 2284732385960395 (-49)) (b32 (-1) 0) (b32 (-1) 0) (b32 (-1) 0);
   mkResult (mkVec2 (b32 (-6323123) (-20)) (b32 (-2117075) (-20))) (mkVec2 (b32 (-10494149) (-24)) (b32 (-2527907) (-22))) (mkVec2 (b32 12689657 (-20)) (b32 (-16677077) (-20))) (b64 1143520240384711 (-48)) (b32 (-1) 0) (b32 (-1) 0) (b32 (-1) 0);
   mkResult (mkVec2 (b32 (-12651069) (-21)) (b32 (-2120011) (-20))) (mkVec2 (b32 (-9361687) (-24)) (b32 (-2850449) (-22))) (mkVec2 (b32 8469873 (-19)) (b32 (-604255) (-15))) (b64 4578809741147583 (-50)) (b32 (-1) 0) (b32 (-1) 0) (b32 (-1) 0)]].
Goal replay_test (mkParams (mkWobbleParams false (b64 5764607523034235 (-57)) (b32 2747269 (-21)) (b32 3019899 (-21))) (mkPositionParams (fdiv (b32 11 0) (b32 32400 0) : float32) (b32 72 0) (mkLoopParams false (b32 (-1) 0) (b32 (-1) 0) (b32 (-1) 0) (b32 (-1) 0) (b64 0 0) (-1))) (mkSamplingParams (b64 180 0) (b32 8589935 (-33)) 20 100000 (b64 (-1) 0)) (mkStylusParams 20 false (-1) (b64 (-1) 0)) PredStrokeEnd) steps_WobbleNotSmoothedIfNotEnabled = true.
Proof. vm_compute. reflexivity. Abort.

(** StrokeModelerTest.AlternateParams: 37 expected results. *)
Definition steps_AlternateParams : list tstep :=
  [TUpdate (mkInput EDown (mkVec2 (b32 0 0) (b32 0 0)) (b64 3 0) (b32 1 (-1)) (b32 13421773 (-26)) (b32 13421773 (-25)));
  TExpect [mkResult (mkVec2 (b32 0 0) (b32 0 0)) (mkVec2 (b32 0 0) (b32 0 0)) (mkVec2 (b32 0 0) (b32 0 0)) (b64 3 0) (b32 1 (-1)) (b32 13421773 (-26)) (b32 13421773 (-25))];
  TPredict;
  TExpect [];
  TClear;
  TUpdate (mkInput EMove (mkVec2 (b32 0 0) (b32 1 (-1))) (b64 6800435437329449 (-51)) (b32 13421773 (-25)) (b32 5033165 (-24)) (b32 5033165 (-24)));
  TExpect [mkResult (mkVec2 (b32 0 0) (b32 9878425 (-27))) (mkVec2 (b32 0 0) (b32 3860647 (-19))) (mkVec2 (b32 0 0) (b32 12064581 (-14))) (b64 1694479359798149 (-49)) (b32 8141983 (-24)) (b32 14408273 (-26)) (b32 12928523 (-25));
   mkResult (mkVec2 (b32 0 0) (b32 230477 (-20))) (mkVec2 (b32 0 0) (b32 15330391 (-20))) (mkVec2 (b32 0 0) (b32 11889097 (-14))) (b64 6800435437329449 (-51)) (b32 15300821 (-25)) (b32 16374563 (-26)) (b32 5972689 (-24))];
  TPredict;
  TExpect [mkResult (mkVec2 (b32 0 0) (b32 12827859 (-25))) (mkVec2 (b32 0 0) (b32 11923253 (-20))) (mkVec2 (b32 0 0) (b32 (-14905993) (-16))) (b64 1708159043666287 (-49)) (b32 7105151 (-24)) (b32 1159725 (-22)) (b32 10854859 (-25));
   mkResult (mkVec2 (b32 0 0) (b32 15045807 (-25))) (mkVec2 (b32 0 0) (b32 2426667 (-19))) (mkVec2 (b32 0 0) (b32 (-7732691) (-14))) (b64 6864836912000847 (-51)) (b32 13767383 (-25)) (b32 9720719 (-25)) (b32 2602985 (-23));
   mkResult (mkVec2 (b32 0 0) (b32 16022241 (-25))) (mkVec2 (b32 0 0) (b32 4275883 (-21))) (mkVec2 (b32 0 0) (b32 (-11880019) (-16))) (b64 3448518824668273 (-50)) (b32 424149 (-20)) (b32 9915335 (-25)) (b32 10217325 (-25));
   mkResult (mkVec2 (b32 0 0) (b32 16448383 (-25))) (mkVec2 (b32 0 0) (b32 1860803 (-21))) (mkVec2 (b32 0 0) (b32 (-5283093) (-16))) (b64 6929013206690877 (-51)) (b32 6744441 (-24)) (b32 9999221 (-25)) (b32 5066719 (-24));
   mkResult (mkVec2 (b32 0 0) (b32 4158233 (-23))) (mkVec2 (b32 0 0) (b32 6489427 (-24))) (mkVec2 (b32 0 0) (b32 (-573961) (-14))) (b64 435075871501661 (-47)) (b32 3362993 (-23)) (b32 10036131 (-25)) (b32 10096529 (-25));
   mkResult (mkVec2 (b32 0 0) (b32 16713463 (-25))) (mkVec2 (b32 0 0) (b32 5657277 (-25))) (mkVec2 (b32 0 0) (b32 (-16018047) (-20))) (b64 6993414681362275 (-51)) (b32 13435195 (-25)) (b32 2513227 (-23)) (b32 10079751 (-25));
   mkResult (mkVec2 (b32 0 0) (b32 4187593 (-23))) (mkVec2 (b32 0 0) (b32 9865003 (-27))) (mkVec2 (b32 0 0) (b32 (-3490657) (-19))) (b64 3512807709348987 (-50)) (b32 3357121 (-23)) (b32 10059619 (-25)) (b32 629565 (-21))];
  TClear;
  TUpdate (mkInput EMove (mkVec2 (b32 13421773 (-26)) (b32 1 0)) (b64 3422735716801577 (-50)) (b32 5033165 (-24)) (b32 13421773 (-25)) (b32 13421773 (-26)));
  TExpect [mkResult (mkVec2 (b32 3959423 (-27)) (b32 13988843 (-25))) (mkVec2 (b32 6177161 (-21)) (b32 10333349 (-19))) (mkVec2 (b32 9651667 (-15)) (b32 16676163 (-15))) (b64 6822953435466301 (-51)) (b32 1747347 (-22)) (b32 4754663 (-24)) (b32 10623333 (-25));
   mkResult (mkVec2 (b32 5898869 (-26)) (b32 10802849 (-24))) (mkVec2 (b32 12264355 (-21)) (b32 5948729 (-18))) (mkVec2 (b32 9511279 (-15)) (b32 9775713 (-15))) (b64 3422735716801577 (-50)) (b32 12384941 (-25)) (b32 5551581 (-24)) (b32 4514749 (-24))];
  TPredict;
  TExpect [mkResult (mkVec2 (b32 10260945 (-26)) (b32 14238823 (-24))) (mkVec2 (b32 4769343 (-20)) (b32 7516927 (-19))) (mkVec2 (b32 (-11924799) (-17)) (b32 (-9582489) (-14))) (b64 6877672170938853 (-51)) (b32 5524737 (-24)) (b32 3109657 (-23)) (b32 15388063 (-26));
   mkResult (mkVec2 (b32 6019665 (-25)) (b32 3916641 (-22))) (mkVec2 (b32 15530669 (-23)) (b32 6247101 (-20))) (mkVec2 (b32 (-6186153) (-15)) (b32 (-9610461) (-14))) (b64 863734113534319 (-48)) (b32 5247913 (-24)) (b32 3248069 (-23)) (b32 7140383 (-25));
   mkResult (mkVec2 (b32 12817793 (-26)) (b32 1018377 (-20))) (mkVec2 (b32 13683497 (-24)) (b32 1371485 (-19))) (mkVec2 (b32 (-4752009) (-16)) (b32 (-3832691) (-14))) (b64 6942073645610251 (-51)) (b32 5127117 (-24)) (b32 3308467 (-23)) (b32 6898791 (-25));
   mkResult (mkVec2 (b32 822503 (-22)) (b32 16565823 (-24))) (mkVec2 (b32 2977117 (-23)) (b32 4776893 (-22))) (mkVec2 (b32 (-2113241) (-16)) (b32 (-13551115) (-17))) (b64 3487024601482291 (-50)) (b32 2536715 (-23)) (b32 6670621 (-24)) (b32 6791417 (-25));
   mkResult (mkVec2 (b32 1663461 (-23)) (b32 16684941 (-24))) (mkVec2 (b32 10381741 (-26)) (b32 16659775 (-25))) (mkVec2 (b32 (-14693381) (-20)) (b32 (-736777) (-14))) (b64 7006249940300281 (-51)) (b32 10103239 (-25)) (b32 13384863 (-25)) (b32 13495593 (-26));
   mkResult (mkVec2 (b32 13374797 (-26)) (b32 16736951 (-24))) (mkVec2 (b32 9046275 (-27)) (b32 7261179 (-25))) (mkVec2 (b32 (-6407219) (-20)) (b32 (-5139805) (-18))) (b64 1759612669408995 (-49)) (b32 10083107 (-25)) (b32 3351249 (-23)) (b32 13455327 (-26));
   mkResult (mkVec2 (b32 1675205 (-23)) (b32 16760439 (-24))) (mkVec2 (b32 15784005 (-29)) (b32 3164183 (-25))) (mkVec2 (b32 (-11169851) (-22)) (b32 (-4480303) (-19))) (b64 7070651414971679 (-51)) (b32 629565 (-21)) (b32 6707531 (-24)) (b32 13435195 (-26))];
  TClear;
  TUpdate (mkInput EMove (mkVec2 (b32 13421773 (-25)) (b32 11744051 (-23))) (b64 6890507429876859 (-51)) (b32 13421773 (-26)) (b32 11744051 (-24)) (b32 0 0));
  TExpect [mkResult (mkVec2 (b32 11193759 (-26)) (b32 14616311 (-24))) (mkVec2 (b32 16533317 (-21)) (b32 11919635 (-19))) (mkVec2 (b32 6670467 (-15)) (b32 8855015 (-21))) (b64 3433994715870003 (-50)) (b32 10888413 (-25)) (b32 12599689 (-25)) (b32 3766485 (-24));
   mkResult (mkVec2 (b32 4320133 (-24)) (b32 1143577 (-20))) (mkVec2 (b32 9518029 (-20)) (b32 11503455 (-19))) (mkVec2 (b32 977571 (-13)) (b32 (-2600865) (-15))) (b64 6890507429876859 (-51)) (b32 9264379 (-25)) (b32 7912135 (-24)) (b32 10213969 (-26))];
  TPredict;
  TExpect [mkResult (mkVec2 (b32 5695865 (-24)) (b32 1329175 (-20))) (mkVec2 (b32 12026957 (-21)) (b32 3248305 (-18))) (mkVec2 (b32 (-15331983) (-16)) (b32 (-5476275) (-13))) (b64 3461354083606279 (-50)) (b32 15602811 (-26)) (b32 10106595 (-24)) (b32 4368787 (-26));
   mkResult (mkVec2 (b32 3133145 (-23)) (b32 11258351 (-23))) (mkVec2 (b32 4997723 (-21)) (b32 5468953 (-20))) (mkVec2 (b32 (-7688369) (-15)) (b32 (-4114835) (-13))) (b64 6954908904548257 (-51)) (b32 14374719 (-26)) (b32 689229 (-20)) (b32 7623567 (-28));
   mkResult (mkVec2 (b32 13035897 (-25)) (b32 5766329 (-22))) (mkVec2 (b32 8777001 (-23)) (b32 4792831 (-21))) (mkVec2 (b32 (-12264617) (-17)) (b32 (-6721015) (-15))) (b64 1746777410470989 (-49)) (b32 1729731 (-23)) (b32 11431995 (-24)) (b32 13314399 (-30));
   mkResult (mkVec2 (b32 13254001 (-25)) (b32 11651777 (-23))) (mkVec2 (b32 15287399 (-25)) (b32 16700041 (-24))) (mkVec2 (b32 (-5420443) (-17)) (b32 (-369895) (-12))) (b64 7019085199238287 (-51)) (b32 13602967 (-26)) (b32 2902039 (-22)) (b32 2899103 (-29));
   mkResult (mkVec2 (b32 13347953 (-25)) (b32 5851893 (-22))) (mkVec2 (b32 3331955 (-24)) (b32 3639817 (-23))) (mkVec2 (b32 (-9430735) (-19)) (b32 (-5151405) (-17))) (b64 3525642968286993 (-50)) (b32 13502303 (-26)) (b32 11685331 (-24)) (b32 5153961 (-31));
   mkResult (mkVec2 (b32 6694109 (-24)) (b32 11726435 (-23))) (mkVec2 (b32 11623255 (-27)) (b32 6345143 (-25))) (mkVec2 (b32 (-2055943) (-18)) (b32 (-8983465) (-19))) (b64 7083486673909685 (-51)) (b32 13455327 (-26)) (b32 11718885 (-24)) (b32 8589935 (-33));
   mkResult (mkVec2 (b32 13408351 (-25)) (b32 11736501 (-23))) (mkVec2 (b32 10120017 (-28)) (b32 11059541 (-27))) (mkVec2 (b32 (-7168485) (-21)) (b32 (-15661531) (-21))) (b64 889460926405673 (-48)) (b32 13435195 (-26)) (b32 11732307 (-24)) (b32 13743895 (-35))];
  TClear;
  TUpdate (mkInput EUp (mkVec2 (b32 11744051 (-24)) (b32 7130317 (-22))) (b64 1733885856537641 (-49)) (b32 13421773 (-27)) (b32 1 0) (b32 0 0));
  TExpect [mkResult (mkVec2 (b32 12384941 (-25)) (b32 5399747 (-22))) (mkVec2 (b32 1462213 (-17)) (b32 2578763 (-17))) (mkVec2 (b32 6811507 (-15)) (b32 (-14855209) (-16))) (b64 6913025428013711 (-51)) (b32 946235 (-22)) (b32 10453883 (-24)) (b32 13743895 (-28));
   mkResult (mkVec2 (b32 4175849 (-23)) (b32 6140461 (-22))) (mkVec2 (b32 6747639 (-19)) (b32 9260447 (-19))) (mkVec2 (b32 11235099 (-16)) (b32 (-13182619) (-16))) (b64 1733885856537641 (-49)) (b32 11609833 (-26)) (b32 818833 (-20)) (b32 0 0);
   mkResult (mkVec2 (b32 1287861 (-21)) (b32 13410029 (-23))) (mkVec2 (b32 2133957 (-18)) (b32 4941991 (-19))) (mkVec2 (b32 (-10848879) (-15)) (b32 (-590413) (-10))) (b64 6967744163486263 (-51)) (b32 8804683 (-26)) (b32 15206869 (-24)) (b32 0 0);
   mkResult (mkVec2 (b32 2778307 (-22)) (b32 6944509 (-22))) (mkVec2 (b32 14185975 (-22)) (b32 16757503 (-22))) (mkVec2 (b32 (-10914041) (-15)) (b32 (-6228507) (-14))) (b64 3499972450410981 (-50)) (b32 7623567 (-26)) (b32 4022757 (-22)) (b32 0 0);
   mkResult (mkVec2 (b32 11468905 (-24)) (b32 14098733 (-23))) (mkVec2 (b32 6228961 (-22)) (b32 7334999 (-22))) (mkVec2 (b32 (-4351607) (-15)) (b32 (-10305667) (-16))) (b64 7032145638157661 (-51)) (b32 14213657 (-27)) (b32 8239291 (-23)) (b32 0 0);
   mkResult (mkVec2 (b32 11624933 (-24)) (b32 14190169 (-23))) (mkVec2 (b32 2712037 (-22)) (b32 12780883 (-24))) (mkVec2 (b32 (-15386359) (-18)) (b32 (-9056367) (-17))) (b64 883015149438999 (-48)) (b32 13770739 (-27)) (b32 8323177 (-23)) (b32 0 0);
   mkResult (mkVec2 (b32 5846021 (-23)) (b32 3557399 (-21))) (mkVec2 (b32 4729497 (-24)) (b32 11143427 (-25))) (mkVec2 (b32 (-1673121) (-16)) (b32 (-3942567) (-17))) (b64 7096321932847691 (-51)) (b32 3392353 (-25)) (b32 16720173 (-24)) (b32 0 0);
   mkResult (mkVec2 (b32 11720563 (-24)) (b32 3561803 (-21))) (mkVec2 (b32 16495359 (-27)) (b32 9710653 (-26))) (mkVec2 (b32 (-2917951) (-18)) (b32 (-3437573) (-18))) (b64 3564261335091695 (-50)) (b32 6744441 (-26)) (b32 8376025 (-23)) (b32 0 0);
   mkResult (mkVec2 (b32 11733985 (-24)) (b32 7127381 (-22))) (mkVec2 (b32 14361297 (-28)) (b32 8469139 (-27))) (mkVec2 (b32 (-10174123) (-21)) (b32 (-11985853) (-21))) (b64 7160723407519089 (-51)) (b32 1681077 (-24)) (b32 8383575 (-23)) (b32 0 0)];
  TPredictFail].
Goal replay_test (mkParams (mkWobbleParams true (b64 5764607523034235 (-57)) (b32 2747269 (-21)) (b32 3019899 (-21))) (mkPositionParams (fdiv (b32 11 0) (b32 32400 0) : float32) (b32 72 0) (mkLoopParams false (b32 (-1) 0) (b32 (-1) 0) (b32 (-1) 0) (b32 (-1) 0) (b64 0 0) (-1))) (mkSamplingParams (b64 70 0) (b32 8589935 (-33)) 20 100000 (b64 (-1) 0)) (mkStylusParams 20 false (-1) (b64 (-1) 0)) PredStrokeEnd) steps_AlternateParams = true.
Proof. vm_compute. reflexivity. Abort.

(** StrokeModelerTest.GenerateOutputOnTUpEvenIfNoTimeDelta: 3 expected results. *)
Definition steps_GenerateOutputOnTUpEvenIfNoTimeDelta : list tstep :=
  [TClear;
  TUpdate (mkInput EDown (mkVec2 (b32 5 0) (b32 5 0)) (b64 0 0) (b32 (-1) 0) (b32 (-1) 0) (b32 (-1) 0));
  TExpect [mkResult (mkVec2 (b32 5 0) (b32 5 0)) (mkVec2 (b32 0 0) (b32 0 0)) (mkVec2 (b32 0 0) (b32 0 0)) (b64 0 0) (b32 (-1) 0) (b32 (-1) 0) (b32 (-1) 0)];
  TClear;
  TUpdate (mkInput EMove (mkVec2 (b32 5 0) (b32 5 0)) (b64 1152921504606847 (-59)) (b32 (-1) 0) (b32 (-1) 0) (b32 (-1) 0));
  TExpect [mkResult (mkVec2 (b32 5 0) (b32 5 0)) (mkVec2 (b32 0 0) (b32 0 0)) (mkVec2 (b32 0 0) (b32 0 0)) (b64 1152921504606847 (-59)) (b32 (-1) 0) (b32 (-1) 0) (b32 (-1) 0)];
  TClear;
  TUpdate (mkInput EUp (mkVec2 (b32 5 0) (b32 5 0)) (b64 1152921504606847 (-59)) (b32 (-1) 0) (b32 (-1) 0) (b32 (-1) 0));
  TExpect [mkResult (mkVec2 (b32 5 0) (b32 5 0)) (mkVec2 (b32 0 0) (b32 0 0)) (mkVec2 (b32 0 0) (b32 0 0)) (b64 8762203435012037 (-60)) (b32 (-1) 0) (b32 (-1) 0) (b32 (-1) 0)]].
Goal replay_test (mkParams (mkWobbleParams true (b64 5764607523034235 (-57)) (b32 2747269 (-21)) (b32 3019899 (-21))) (mkPositionParams (fdiv (b32 11 0) (b32 32400 0) : float32) (b32 72 0) (mkLoopParams false (b32 (-1) 0) (b32 (-1) 0) (b32 (-1) 0) (b32 (-1) 0) (b64 0 0) (-1))) (mkSamplingParams (b64 180 0) (b32 8589935 (-33)) 20 100000 (b64 (-1) 0)) (mkStylusParams 20 false (-1) (b64 (-1) 0)) PredStrokeEnd) steps_GenerateOutputOnTUpEvenIfNoTimeDelta = true.
Proof. vm_compute. reflexivity. Abort.

(** StrokeModelerTest.SaveAndRestore: 35 expected results. *)
Definition steps_SaveAndRestore : list tstep :=
  [TSave;
  TUpdate (mkInput EDown (mkVec2 (b32 (-6) 0) (b32 (-2) 0)) (b64 4 0) (b32 (-1) 0) (b32 (-1) 0) (b32 (-1) 0));
  TExpect [mkResult (mkVec2 (b32 (-6) 0) (b32 (-2) 0)) (mkVec2 (b32 0 0) (b32 0 0)) (mkVec2 (b32 0 0) (b32 0 0)) (b64 4 0) (b32 (-1) 0) (b32 (-1) 0) (b32 (-1) 0)];
  TSave;
  TClear;
  TUpdate (mkInput EUp (mkVec2 (b32 (-12624855) (-21)) (b32 (-2) 0)) (b64 282650134738423 (-46)) (b32 (-1) 0) (b32 (-1) 0) (b32 (-1) 0));
  TExpect [mkResult (mkVec2 (b32 (-12583541) (-21)) (b32 (-2) 0)) (mkVec2 (b32 (-16508781) (-28)) (b32 0 0)) (mkVec2 (b32 (-241297) (-14)) (b32 0 0)) (b64 4508328406979235 (-50)) (b32 (-1) 0) (b32 (-1) 0) (b32 (-1) 0);
   mkResult (mkVec2 (b32 (-12584799) (-21)) (b32 (-2) 0)) (mkVec2 (b32 (-10925323) (-26)) (b32 0 0)) (mkVec2 (b32 (-3181445) (-17)) (b32 0 0)) (b64 2256528593293987 (-49)) (b32 (-1) 0) (b32 (-1) 0) (b32 (-1) 0);
   mkResult (mkVec2 (b32 (-3146829) (-19)) (b32 (-2) 0)) (mkVec2 (b32 (-9623411) (-25)) (b32 0 0)) (mkVec2 (b32 (-1946393) (-16)) (b32 0 0)) (b64 4517673376206029 (-50)) (b32 (-1) 0) (b32 (-1) 0) (b32 (-1) 0);
   mkResult (mkVec2 (b32 (-12591091) (-21)) (b32 (-2) 0)) (mkVec2 (b32 (-881433) (-21)) (b32 0 0)) (mkVec2 (b32 (-16762955) (-19)) (b32 0 0)) (b64 282650134738423 (-46)) (b32 (-1) 0) (b32 (-1) 0) (b32 (-1) 0);
   mkResult (mkVec2 (b32 (-12597173) (-21)) (b32 (-2) 0)) (mkVec2 (b32 (-1081711) (-21)) (b32 0 0)) (mkVec2 (b32 (-2253547) (-17)) (b32 0 0)) (b64 4528707195293087 (-50)) (b32 (-1) 0) (b32 (-1) 0) (b32 (-1) 0);
   mkResult (mkVec2 (b32 (-6301627) (-20)) (b32 (-2) 0)) (mkVec2 (b32 (-8828171) (-24)) (b32 0 0)) (mkVec2 (b32 (-15727801) (-23)) (b32 0 0)) (b64 4534899644780721 (-50)) (b32 (-1) 0) (b32 (-1) 0) (b32 (-1) 0);
   mkResult (mkVec2 (b32 (-12608917) (-21)) (b32 (-2) 0)) (mkVec2 (b32 (-16263833) (-25)) (b32 0 0)) (mkVec2 (b32 7849745 (-20)) (b32 0 0)) (b64 141912646383095 (-45)) (b32 (-1) 0) (b32 (-1) 0) (b32 (-1) 0);
   mkResult (mkVec2 (b32 (-3153435) (-19)) (b32 (-2) 0)) (mkVec2 (b32 (-6972611) (-24)) (b32 0 0)) (mkVec2 (b32 13026355 (-20)) (b32 0 0)) (b64 2273698566873337 (-49)) (b32 (-1) 0) (b32 (-1) 0) (b32 (-1) 0);
   mkResult (mkVec2 (b32 (-12617515) (-21)) (b32 (-2) 0)) (mkVec2 (b32 (-11287711) (-25)) (b32 0 0)) (mkVec2 (b32 14948185 (-20)) (b32 0 0)) (b64 4553702173224993 (-50)) (b32 (-1) 0) (b32 (-1) 0) (b32 (-1) 0);
   mkResult (mkVec2 (b32 (-12620661) (-21)) (b32 (-2) 0)) (mkVec2 (b32 (-4333555) (-24)) (b32 0 0)) (mkVec2 (b32 14742035 (-20)) (b32 0 0)) (b64 4559894622712627 (-50)) (b32 (-1) 0) (b32 (-1) 0) (b32 (-1) 0);
   mkResult (mkVec2 (b32 (-6311379) (-20)) (b32 (-2) 0)) (mkVec2 (b32 (-6308233) (-25)) (b32 0 0)) (mkVec2 (b32 6639059 (-19)) (b32 0 0)) (b64 2283099831095473 (-49)) (b32 (-1) 0) (b32 (-1) 0) (b32 (-1) 0)];
  TRestore;
  TClear;
  TUpdate (mkInput EUp (mkVec2 (b32 (-12624855) (-21)) (b32 (-2) 0)) (b64 282650134738423 (-46)) (b32 (-1) 0) (b32 (-1) 0) (b32 (-1) 0));
  TExpect [mkResult (mkVec2 (b32 (-12583541) (-21)) (b32 (-2) 0)) (mkVec2 (b32 (-16508781) (-28)) (b32 0 0)) (mkVec2 (b32 (-241297) (-14)) (b32 0 0)) (b64 4508328406979235 (-50)) (b32 (-1) 0) (b32 (-1) 0) (b32 (-1) 0);
   mkResult (mkVec2 (b32 (-12584799) (-21)) (b32 (-2) 0)) (mkVec2 (b32 (-10925323) (-26)) (b32 0 0)) (mkVec2 (b32 (-3181445) (-17)) (b32 0 0)) (b64 2256528593293987 (-49)) (b32 (-1) 0) (b32 (-1) 0) (b32 (-1) 0);
   mkResult (mkVec2 (b32 (-3146829) (-19)) (b32 (-2) 0)) (mkVec2 (b32 (-9623411) (-25)) (b32 0 0)) (mkVec2 (b32 (-1946393) (-16)) (b32 0 0)) (b64 4517673376206029 (-50)) (b32 (-1) 0) (b32 (-1) 0) (b32 (-1) 0);
   mkResult (mkVec2 (b32 (-12591091) (-21)) (b32 (-2) 0)) (mkVec2 (b32 (-881433) (-21)) (b32 0 0)) (mkVec2 (b32 (-16762955) (-19)) (b32 0 0)) (b64 282650134738423 (-46)) (b32 (-1) 0) (b32 (-1) 0) (b32 (-1) 0);
   mkResult (mkVec2 (b32 (-12597173) (-21)) (b32 (-2) 0)) (mkVec2 (b32 (-1081711) (-21)) (b32 0 0)) (mkVec2 (b32 (-2253547) (-17)) (b32 0 0)) (b64 4528707195293087 (-50)) (b32 (-1) 0) (b32 (-1) 0) (b32 (-1) 0);
   mkResult (mkVec2 (b32 (-6301627) (-20)) (b32 (-2) 0)) (mkVec2 (b32 (-8828171) (-24)) (b32 0 0)) (mkVec2 (b32 (-15727801) (-23)) (b32 0 0)) (b64 4534899644780721 (-50)) (b32 (-1) 0) (b32 (-1) 0) (b32 (-1) 0);
   mkResult (mkVec2 (b32 (-12608917) (-21)) (b32 (-2) 0)) (mkVec2 (b32 (-16263833) (-25)) (b32 0 0)) (mkVec2 (b32 7849745 (-20)) (b32 0 0)) (b64 141912646383095 (-45)) (b32 (-1) 0) (b32 (-1) 0) (b32 (-1) 0);
   mkResult (mkVec2 (b32 (-3153435) (-19)) (b32 (-2) 0)) (mkVec2 (b32 (-6972611) (-24)) (b32 0 0)) (mkVec2 (b32 13026355 (-20)) (b32 0 0)) (b64 2273698566873337 (-49)) (b32 (-1) 0) (b32 (-1) 0) (b32 (-1) 0);
   mkResult (mkVec2 (b32 (-12617515) (-21)) (b32 (-2) 0)) (mkVec2 (b32 (-11287711) (-25)) (b32 0 0)) (mkVec2 (b32 14948185 (-20)) (b32 0 0)) (b64 4553702173224993 (-50)) (b32 (-1) 0) (b32 (-1) 0) (b32 (-1) 0);
   mkResult (mkVec2 (b32 (-12620661) (-21)) (b32 (-2) 0)) (mkVec2 (b32 (-4333555) (-24)) (b32 0 0)) (mkVec2 (b32 14742035 (-20)) (b32 0 0)) (b64 4559894622712627 (-50)) (b32 (-1) 0) (b32 (-1) 0) (b32 (-1) 0);
   mkResult (mkVec2 (b32 (-6311379) (-20)) (b32 (-2) 0)) (mkVec2 (b32 (-6308233) (-25)) (b32 0 0)) (mkVec2 (b32 6639059 (-19)) (b32 0 0)) (b64 2283099831095473 (-49)) (b32 (-1) 0) (b32 (-1) 0) (b32 (-1) 0)];
  TRestore;
  TClear;
  TUpdate (mkInput EUp (mkVec2 (b32 (-12624855) (-21)) (b32 (-2) 0)) (b64 282650134738423 (-46)) (b32 (-1) 0) (b32 (-1) 0) (b32 (-1) 0));
  TExpect [mkResult (mkVec2 (b32 (-12583541) (-21)) (b32 (-2) 0)) (mkVec2 (b32 (-16508781) (-28)) (b32 0 0)) (mkVec2 (b32 (-241297) (-14)) (b32 0 0)) (b64 4508328406979235 (-50)) (b32 (-1) 0) (b32 (-1) 0) (b32 (-1) 0);
   mkResult (mkVec2 (b32 (-12584799) (-21)) (b32 (-2) 0)) (mkVec2 (b32 (-10925323) (-26)) (b32 0 0)) (mkVec2 (b32 (-3181445) (-17)) (b32 0 0)) (b64 2256528593293987 (-49)) (b32 (-1) 0) (b32 (-1) 0) (b32 (-1) 0);
   mkResult (mkVec2 (b32 (-3146829) (-19)) (b32 (-2) 0)) (mkVec2 (b32 (-9623411) (-25)) (b32 0 0)) (mkVec2 (b32 (-1946393) (-16)) (b32 0 0)) (b64 4517673376206029 (-50)) (b32 (-1) 0) (b32 (-1) 0) (b32 (-1) 0);
   mkResult (mkVec2 (b32 (-12591091) (-21)) (b32 (-2) 0)) (mkVec2 (b32 (-881433) (-21)) (b32 0 0)) (mkVec2 (b32 (-16762955) (-19)) (b32 0 0)) (b64 282650134738423 (-46)) (b32 (-1) 0) (b32 (-1) 0) (b32 (-1) 0);
   mkResult (mkVec2 (b32 (-12597173) (-21)) (b32 (-2) 0)) (mkVec2 (b32 (-1081711) (-21)) (b32 0 0)) (mkVec2 (b32 (-2253547) (-17)) (b32 0 0)) (b64 4528707195293087 (-50)) (b32 (-1) 0) (b32 (-1) 0) (b32 (-1) 0);
   mkResult (mkVec2 (b32 (-6301627) (-20)) (b32 (-2) 0)) (mkVec2 (b32 (-8828171) (-24)) (b32 0 0)) (mkVec2 (b32 (-15727801) (-23)) (b32 0 0)) (b64 4534899644780721 (-50)) (b32 (-1) 0) (b32 (-1) 0) (b32 (-1) 0);
   mkResult (mkVec2 (b32 (-12608917) (-21)) (b32 (-2) 0)) (mkVec2 (b32 (-16263833) (-25)) (b32 0 0)) (mkVec2 (b32 7849745 (-20)) (b32 0 0)) (b64 141912646383095 (-45)) (b32 (-1) 0) (b32 (-1) 0) (b32 (-1) 0);
   mkResult (mkVec2 (b32 (-3153435) (-19)) (b32 (-2) 0)) (mkVec2 (b32 (-6972611) (-24)) (b32 0 0)) (mkVec2 (b32 13026355 (-20)) (b32 0 0)) (b64 2273698566873337 (-49)) (b32 (-1) 0) (b32 (-1) 0) (b32 (-1) 0);
   mkResult (mkVec2 (b32 (-12617515) (-21)) (b32 (-2) 0)) (mkVec2 (b32 (-11287711) (-25)) (b32 0 0)) (mkVec2 (b32 14948185 (-20)) (b32 0 0)) (b64 4553702173224993 (-50)) (b32 (-1) 0) (b32 (-1) 0) (b32 (-1) 0);
   mkResult (mkVec2 (b32 (-12620661) (-21)) (b32 (-2) 0)) (mkVec2 (b32 (-4333555) (-24)) (b32 0 0)) (mkVec2 (b32 14742035 (-20)) (b32 0 0)) (b64 4559894622712627 (-50)) (b32 (-1) 0) (b32 (-1) 0) (b32 (-1) 0);
   mkResult (mkVec2 (b32 (-6311379) (-20)) (b32 (-2) 0)) (mkVec2 (b32 (-6308233) (-25)) (b32 0 0)) (mkVec2 (b32 6639059 (-19)) (b32 0 0)) (b64 2283099831095473 (-49)) (b32 (-1) 0) (b32 (-1) 0) (b32 (-1) 0)];
  TClear;
  TUpdate (mkInput EDown (mkVec2 (b32 (-6) 0) (b32 (-2) 0)) (b64 4 0) (b32 (-1) 0) (b32 (-1) 0) (b32 (-1) 0));
  TExpect [mkResult (mkVec2 (b32 (-6) 0) (b32 (-2) 0)) (mkVec2 (b32 0 0) (b32 0 0)) (mkVec2 (b32 0 0) (b32 0 0)) (b64 4 0) (b32 (-1) 0) (b32 (-1) 0) (b32 (-1) 0)];
  TClear;
  TUpdate (mkInput EUp (mkVec2 (b32 (-12624855) (-21)) (b32 (-2) 0)) (b64 282650134738423 (-46)) (b32 (-1) 0) (b32 (-1) 0) (b32 (-1) 0));
  TRestore;
  TClear;
  TUpdate (mkInput EUp (mkVec2 (b32 (-12624855) (-21)) (b32 (-2) 0)) (b64 282650134738423 (-46)) (b32 (-1) 0) (b32 (-1) 0) (b32 (-1) 0))].
Goal replay_test (mkParams (mkWobbleParams true (b64 5764607523034235 (-57)) (b32 2747269 (-21)) (b32 3019899 (-21))) (mkPositionParams (fdiv (b32 11 0) (b32 32400 0) : float32) (b32 72 0) (mkLoopParams false (b32 (-1) 0) (b32 (-1) 0) (b32 (-1) 0) (b32 (-1) 0) (b64 0 0) (-1))) (mkSamplingParams (b64 180 0) (b32 8589935 (-33)) 20 100000 (b64 (-1) 0)) (mkStylusParams 20 false (-1) (b64 (-1) 0)) PredStrokeEnd) steps_SaveAndRestore = true.
Proof. vm_compute. reflexivity. Abort.

Inductive kstep :=
| KUpdate (p : Vec2) (t : float64) | KReset
| KEstimate (e : option (Vec2 * Vec2 * Vec2 * Vec2))
| KPredictAt (tip : TipState) (expected : list TipState).
Definition rel_near (a b : float32) : bool :=
  let t := tol in
  if Beqb a (b32 0 0) || Beqb b (b32 0 0) then fnear t a b
  else Bltb (Babs (Bminus mode_NE (b32_to_b64 (Bdiv mode_NE a b)) (b64 1 0))) t.
Definition vrel (a b : Vec2) : bool := rel_near (vx a) (vx b) && rel_near (vy a) (vy b).
Definition tnear (a b : TipState) : bool :=
  vnear tol (t_pos a) (t_pos b) && vnear tol (t_vel a) (t_vel b) &&
  vnear tol (t_acc a) (t_acc b) && dnear tol (t_time a) (t_time b).
Fixpoint kreplay (k : KPredictor) (ts : list kstep) : bool :=
  match ts with
  | [] => true
  | KUpdate p t :: r =>
      match kpred_update k p t with Ret k' => kreplay k' r | _ => false end
  | KReset :: r => kreplay (kpred_reset k) r
  | KEstimate None :: r => match kpred_estimate k with None => kreplay k r | _ => false end
  | KEstimate (Some (p, v, a, j)) :: r =>
      match kpred_estimate k with
      | Some e => vrel p (ke_pos e) && vrel v (ke_vel e) && vrel a (ke_acc e) && vrel j (ke_jerk e) && kreplay k r
      | None => false
      end
  | KPredictAt tip ex :: r =>
      match kpred_predict k tip with Ret l => all2 tnear l ex && kreplay k r | _ => false end
  end.

(** KalmanPredictorTest.EmptyPrediction. *)
Goal kreplay (kpred_new (mkKalmanParams (b64 4880639547022073 (-64)) (b64 7625999292221989 (-58)) 4 20 (b32 5368709 (-29)) (b32 1 (-1)) (b32 13421773 (-27)) (b64 4803839602528529 (-58)) (mkConfidenceParams 20 (b32 5368709 (-27)) (b32 3 0) (b32 15 0) (b32 13421773 (-26)) (b32 13421773 (-25)))) (mkSamplingParams (b64 180 0) (b32 8589935 (-33)) 20 100000 (b64 (-1) 0)))
 [KEstimate None;
  KPredictAt (mkTip (mkVec2 (b32 4 0) (b32 3 0)) (mkVec2 (b32 2 0) (b32 (-4) 0)) (mkVec2 (b32 0 0) (b32 0 0)) (b64 3 0)) [];
  KUpdate (mkVec2 (b32 1 0) (b32 3 0)) (b64 4 0);
  KEstimate None;
  KPredictAt (mkTip (mkVec2 (b32 1 0) (b32 3 0)) (mkVec2 (b32 0 0) (b32 0 0)) (mkVec2 (b32 0 0) (b32 0 0)) (b64 6980579422424269 (-51))) []] = true.
Proof. vm_compute. reflexivity. Abort.

(** KalmanPredictorTest.TypicalCase. *)
Goal kreplay (kpred_new (mkKalmanParams (b64 4880639547022073 (-64)) (b64 7625999292221989 (-58)) 4 20 (b32 5368709 (-29)) (b32 1 (-1)) (b32 13421773 (-27)) (b64 4803839602528529 (-58)) (mkConfidenceParams 20 (b32 5368709 (-27)) (b32 3 0) (b32 15 0) (b32 13421773 (-26)) (b32 13421773 (-25)))) (mkSamplingParams (b64 180 0) (b32 8589935 (-33)) 20 100000 (b64 (-1) 0)))
 [KUpdate (mkVec2 (b32 0 0) (b32 0 0)) (b64 0 0);
  KUpdate (mkVec2 (b32 13421773 (-27)) (b32 0 0)) (b64 5764607523034235 (-59));
  KUpdate (mkVec2 (b32 13421773 (-26)) (b32 0 0)) (b64 5764607523034235 (-58));
  KEstimate None;
  KPredictAt (mkTip (mkVec2 (b32 4 0) (b32 3 0)) (mkVec2 (b32 2 0) (b32 (-4) 0)) (mkVec2 (b32 0 0) (b32 0 0)) (b64 3 0)) [];
  KUpdate (mkVec2 (b32 5033165 (-24)) (b32 0 0)) (b64 1080863910568919 (-55));
  KEstimate (Some ((mkVec2 (b32 5046251 (-24)) (b32 0 0)), (mkVec2 (b32 890241 (-16)) (b32 0 0)), (mkVec2 (b32 (-2189099) (-15)) (b32 0 0)), (mkVec2 (b32 (-13855949) (-12)) (b32 0 0))));
  KPredictAt (mkTip (mkVec2 (b32 13421773 (-26)) (b32 0 0)) (mkVec2 (b32 10 0) (b32 0 0)) (mkVec2 (b32 0 0) (b32 0 0)) (b64 1080863910568919 (-55))) [(mkTip (mkVec2 (b32 16468515 (-26)) (b32 0 0)) (mkVec2 (b32 2020973 (-18)) (b32 0 0)) (mkVec2 (b32 10568797 (-15)) (b32 0 0)) (b64 5130500695500469 (-57)));
   (mkTip (mkVec2 (b32 10093173 (-25)) (b32 0 0)) (mkVec2 (b32 7121771 (-19)) (b32 0 0)) (mkVec2 (b32 7340971 (-12)) (b32 0 0)) (b64 1480783557479419 (-55)));
   (mkTip (mkVec2 (b32 12586267 (-25)) (b32 0 0)) (mkVec2 (b32 53905 (-12)) (b32 0 0)) (mkVec2 (b32 (-11219685) (-17)) (b32 0 0)) (b64 6730179283142469 (-57)))];
  KUpdate (mkVec2 (b32 1 (-1)) (b32 13421773 (-27))) (b64 5764607523034235 (-57));
  KEstimate (Some ((mkVec2 (b32 8339115 (-24)) (b32 13038715 (-27))), (mkVec2 (b32 7396917 (-18)) (b32 8772387 (-19))), (mkVec2 (b32 11008573 (-14)) (b32 13333627 (-14))), (mkVec2 (b32 4561203 (-10)) (b32 7166157 (-10)))));
  KPredictAt (mkTip (mkVec2 (b32 5033165 (-24)) (b32 0 0)) (mkVec2 (b32 10 0) (b32 0 0)) (mkVec2 (b32 0 0) (b32 0 0)) (b64 5764607523034235 (-57))) [(mkTip (mkVec2 (b32 6261257 (-24)) (b32 6791417 (-28))) (mkVec2 (b32 4468769 (-18)) (b32 4682783 (-19))) (mkVec2 (b32 3357801 (-11)) (b32 12336083 (-13))) (b64 1642913144064757 (-55)));
   (mkTip (mkVec2 (b32 16676553 (-25)) (b32 13032541 (-27))) (mkVec2 (b32 14793939 (-19)) (b32 4386167 (-18))) (mkVec2 (b32 2438903 (-10)) (b32 5333775 (-12))) (b64 7364286110676235 (-57)));
   (mkTip (mkVec2 (b32 11145105 (-24)) (b32 13616389 (-26))) (mkVec2 (b32 131149 (-12)) (b32 1399921 (-16))) (mkVec2 (b32 11414091 (-14)) (b32 13970571 (-14))) (b64 2042832790975257 (-55)))]] = true.
Proof. vm_compute. reflexivity. Abort.

(** KalmanPredictorTest.AlternateParams. *)
Goal kreplay (kpred_new (mkKalmanParams (b64 4880639547022073 (-64)) (b64 7625999292221989 (-58)) 4 20 (b32 5368709 (-29)) (b32 1 (-1)) (b32 13421773 (-27)) (b64 3602879701896397 (-57)) (mkConfidenceParams 20 (b32 5368709 (-27)) (b32 3 0) (b32 15 0) (b32 13421773 (-26)) (b32 13421773 (-25)))) (mkSamplingParams (b64 200 0) (b32 8589935 (-33)) 20 100000 (b64 (-1) 0)))
 [KUpdate (mkVec2 (b32 2 0) (b32 5 0)) (b64 1 0);
  KUpdate (mkVec2 (b32 9227469 (-22)) (b32 10276045 (-21))) (b64 2296835809958953 (-51));
  KUpdate (mkVec2 (b32 9646899 (-22)) (b32 4928307 (-20))) (b64 1170935903116329 (-50));
  KUpdate (mkVec2 (b32 9646899 (-22)) (b32 9227469 (-21))) (b64 2386907802506363 (-51));
  KPredictAt (mkTip (mkVec2 (b32 9 (-2)) (b32 19 (-2))) (mkVec2 (b32 1 0) (b32 (-20) 0)) (mkVec2 (b32 0 0) (b32 0 0)) (b64 2386907802506363 (-51))) [(mkTip (mkVec2 (b32 4760535 (-21)) (b32 4867175 (-20))) (mkVec2 (b32 775553 (-17)) (b32 (-12087303) (-19))) (mkVec2 (b32 166449 (-9)) (b32 (-14786737) (-15))) (b64 2398166801574789 (-51)));
   (mkTip (mkVec2 (b32 9639349 (-22)) (b32 9483531 (-21))) (mkVec2 (b32 8914993 (-21)) (b32 (-6425831) (-18))) (mkVec2 (b32 (-16244913) (-14)) (b32 (-4321893) (-15))) (b64 4818851601286431 (-52)));
   (mkTip (mkVec2 (b32 4826805 (-21)) (b32 9225791 (-21))) (mkVec2 (b32 (-16769247) (-22)) (b32 (-6389393) (-18))) (mkVec2 (b32 (-9454047) (-12)) (b32 12285903 (-16))) (b64 4841369599423283 (-52)));
   (mkTip (mkVec2 (b32 1193961 (-19)) (b32 1120351 (-18))) (mkVec2 (b32 (-11979561) (-21)) (b32 (-13537903) (-19))) (mkVec2 (b32 (-11386431) (-15)) (b32 (-596045) (-11))) (b64 607985949695017 (-49)))];
  KUpdate (mkVec2 (b32 9227469 (-22)) (b32 4404019 (-20))) (b64 607985949695017 (-49));
  KEstimate (Some ((mkVec2 (b32 72047 (-15)) (b32 8793987 (-21))), (mkVec2 (b32 (-12013535) (-20)) (b32 (-12533629) (-20))), (mkVec2 (b32 (-1343529) (-12)) (b32 3036283 (-14))), (mkVec2 (b32 (-4644045) (-12)) (b32 6429901 (-12)))));
  KPredictAt (mkTip (mkVec2 (b32 9 (-2)) (b32 9 (-1))) (mkVec2 (b32 (-1) 0) (b32 (-20) 0)) (mkVec2 (b32 0 0) (b32 0 0)) (b64 607985949695017 (-49))) [(mkTip (mkVec2 (b32 9436765 (-22)) (b32 9242149 (-21))) (mkVec2 (b32 8526181 (-24)) (b32 (-9052409) (-19))) (mkVec2 (b32 7026927 (-18)) (b32 16339095 (-15))) (b64 1221601398924247 (-50)));
   (mkTip (mkVec2 (b32 9439281 (-22)) (b32 567083 (-17))) (mkVec2 (b32 (-3069811) (-22)) (b32 (-15743005) (-20))) (mkVec2 (b32 (-8566327) (-14)) (b32 13183989 (-15))) (b64 4908923593833841 (-52)));
   (mkTip (mkVec2 (b32 2346713 (-20)) (b32 8925689 (-21))) (mkVec2 (b32 (-9899187) (-21)) (b32 (-13885977) (-20))) (mkVec2 (b32 (-4392959) (-12)) (b32 5014443 (-14))) (b64 4931441591970693 (-52)));
   (mkTip (mkVec2 (b32 72047 (-15)) (b32 8793987 (-21))) (mkVec2 (b32 (-6006715) (-19)) (b32 (-6266867) (-19))) (mkVec2 (b32 (-13288673) (-13)) (b32 13747559 (-16))) (b64 2476979795053773 (-51)));
   (mkTip (mkVec2 (b32 4482243 (-21)) (b32 8673611 (-21))) (mkVec2 (b32 (-6874045) (-19)) (b32 (-5770733) (-19))) (mkVec2 (b32 (-10934059) (-15)) (b32 197807 (-10))) (b64 2488238794122199 (-51)))]] = true.
Proof. vm_compute. reflexivity. Abort.

(** KalmanPredictorTest.Reset. *)
Goal kreplay (kpred_new (mkKalmanParams (b64 4880639547022073 (-64)) (b64 7625999292221989 (-58)) 4 20 (b32 5368709 (-29)) (b32 1 (-1)) (b32 13421773 (-27)) (b64 4803839602528529 (-58)) (mkConfidenceParams 20 (b32 5368709 (-27)) (b32 3 0) (b32 15 0) (b32 13421773 (-26)) (b32 13421773 (-25)))) (mkSamplingParams (b64 180 0) (b32 8589935 (-33)) 20 100000 (b64 (-1) 0)))
 [KUpdate (mkVec2 (b32 4 0) (b32 (-4) 0)) (b64 6 0);
  KUpdate (mkVec2 (b32 (-6) 0) (b32 9 0)) (b64 6789176438261023 (-50));
  KUpdate (mkVec2 (b32 10 0) (b32 5 0)) (b64 6822953435466301 (-50));
  KEstimate None;
  KPredictAt (mkTip (mkVec2 (b32 1 0) (b32 1 0)) (mkVec2 (b32 6 0) (b32 (-3) 0)) (mkVec2 (b32 0 0) (b32 0 0)) (b64 6822953435466301 (-50))) [];
  KUpdate (mkVec2 (b32 2 0) (b32 4 0)) (b64 1714182608167895 (-48));
  KReset;
  KEstimate None;
  KPredictAt (mkTip (mkVec2 (b32 1 0) (b32 1 0)) (mkVec2 (b32 6 0) (b32 (-3) 0)) (mkVec2 (b32 0 0) (b32 0 0)) (b64 1714182608167895 (-48))) [];
  KUpdate (mkVec2 (b32 (-9) 0) (b32 3 0)) (b64 2 0);
  KUpdate (mkVec2 (b32 (-6) 0) (b32 (-1) 0)) (b64 4728779608739021 (-51));
  KUpdate (mkVec2 (b32 6 0) (b32 (-6) 0)) (b64 2476979795053773 (-50));
  KEstimate None;
  KPredictAt (mkTip (mkVec2 (b32 1 0) (b32 1 0)) (mkVec2 (b32 6 0) (b32 (-3) 0)) (mkVec2 (b32 0 0) (b32 0 0)) (b64 2476979795053773 (-50))) [];
  KUpdate (mkVec2 (b32 3 0) (b32 6 0)) (b64 2589569785738035 (-50))] = true.
Proof. vm_compute. reflexivity. Abort.

