(** * Noise parameters of the Kalman filter with a certificate
    The rows are directions of the (left) eigenvectors of the filter's limit; the
    numbers were computed outside Coq (tools/gen_noise.py) and are only checked here. *)
From Coq Require Import ZArith Bool List QArith.
From Verif Require Import Filter.
Import ListNotations.
Definition cert_default : certificate := (mkCert
  [mkRow (mkQ4 (1#1) (-1667187#8388608) (-1268541#524288) (16791315#4194304)) [(5027015#16777216); (0#1); (0#1); (-4749301#8388608); (0#1); (0#1)] (56741#65536) (21112753099129#70368744177664) (61#2048);
   mkRow (mkQ4 (11863283#16777216) (-10666579#8388608) (-11673607#16777216) (83086469#16777216)) [(4749301#8388608); (5027015#16777216); (0#1); (0#1); (0#1); (0#1)] (56741#65536) (-9982090822505#140737488355328) (1953#65536);
   mkRow (mkQ4 (0#1) (-26835267#16777216) (12042169#8388608) (50336751#16777216)) [(0#1); (4749301#8388608); (5027015#16777216); (0#1); (0#1); (0#1)] (56741#65536) (-56342312252713#140737488355328) (773#32768);
   mkRow (mkQ4 (-11863283#16777216) (-16617641#16777216) (45734005#16777216) (-11899553#16777216)) [(0#1); (0#1); (4749301#8388608); (5027015#16777216); (0#1); (0#1)] (56741#65536) (-17424493076487#35184372088832) (1315#65536);
   mkRow (mkQ4 (1#1) (-19899281#16777216) (26180281#16777216) (-10655607#8388608)) [(0#1); (0#1); (0#1); (0#1); (9748879#16777216); (-2131121#16777216)] (46407#65536) (3684873090365#8796093022208) (1285#65536);
   mkRow (mkQ4 (0#1) (-11120991#16777216) (7985369#4194304) (-70283373#16777216)) [(0#1); (0#1); (0#1); (0#1); (2131121#16777216); (9748879#16777216)] (46407#65536) (-17877131721931#140737488355328) (865#32768)]
  (mkQ4 (1614719#2097152) (4576565#8388608) (1919029#8388608) (100585#2097152))
  [[(-4217453#16777216); (0#1); (-8278683#16777216); (0#1); (20994669#16777216); (-8162743#8388608)];
   [(-8220687#8388608); (0#1); (-9300279#16777216); (0#1); (8220687#8388608); (-6839529#4194304)];
   [(-761489#1048576); (0#1); (-449051#8388608); (0#1); (761489#1048576); (-15980869#16777216)];
   [(-2935615#16777216); (0#1); (132929#2097152); (0#1); (2935615#16777216); (-6938741#16777216)]]
  [(-27240009#16777216); (0#1); (-8925387#8388608); (0#1); (44017225#16777216); (-52830493#16777216)]
  (4255#1024) (4337#512)
  [(1#1); (355#128); (25271#1024); (187077#512); (3709237#1024); (26703115#1024); (33734557#256); (480332197#1024); (632073819#512); (2408865133#1024); (3729201435#1024); (4619246015#1024); (2464583733#512); (146943067#32); (4257754361#1024); (1924368235#512); (865473061#256); (768777023#256); (2703647169#1024); (589409231#256); (2048133395#1024); (222371599#128); (386162383#256); (334989197#256); (1161482653#1024); (1006160263#1024); (217838359#256); (754597415#1024); (40841883#64); (70732135#128); (489962215#1024); (212113453#512); (367302023#1024); (159007529#512); (137670651#512); (238392999#1024); (25800265#128); (22337965#128); (154722173#1024); (133958877#1024); (57991021#512); (100417731#1024); (86942159#1024); (75275005#1024); (65173581#1024); (14106943#256); (48855657#1024); (42299725#1024); (36623603#1024); (7927305#256); (13727175#512); (23770487#1024); (2572625#128); (17819545#1024); (15428679#1024); (3339667#256); (5783227#512); (10014757#1024); (4335649#512); (1877033#256); (812633#128); (5629145#1024); (2437119#512); (131895#32); (913689#256); (1582407#512); (1370311#512); (2373357#1024); (2055379#1024); (890037#512); (1541715#1024); (83459#64); (289167#256); (1001971#1024); (434017#512); (752071#1024); (651671#1024); (70593#128); (489483#1024); (212161#512); (183953#512); (319061#1024); (276771#1024); (60039#256); (208455#1024); (11313#64); (157245#1024); (136671#1024); (59429#512); (103435#1024); (45041#512); (78521#1024); (2141#32); (29923#512); (52343#1024); (45847#1024); (20111#512); (4419#128); (973#32); (13743#512); (12163#512); (10795#512); (19221#1024); (8585#512); (7697#512); (433#32); (12525#1024); (2843#256); (5187#512); (4755#512); (4381#512); (4057#512); (7553#1024); (1767#256); (831#128); (1571#256); (5969#1024); (2949#512)]
  184 2)%Q.

(** [n / d], correctly rounded like a literal. *)
Definition decimal acosf (n d : Z) : float64 := ddiv (Arith := ieee acosf) (dofZ (Arith := ieee acosf) n) (dofZ (Arith := ieee acosf) d).
(** The values of kalman_predictor_test.cc:42-43. *)
Lemma default_certified : forall acosf, filter_certified acosf (decimal acosf 26458 100000000) (decimal acosf 26458 1000000) cert_default = true.
Proof. intros acosf. vm_cast_no_check (eq_refl true). Qed.
