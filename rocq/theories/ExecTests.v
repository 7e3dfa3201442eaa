(* ExecTests.v -- the executable model run on the inputs of the project's own tests
   (foronoi/tests/unit.py): the cell areas, rounded to two digits, are the ones the
   tests expect.  These are tests of the model's faithfulness, not proofs: the tactic
   [same] evaluates both sides while the file is compiled and fails the build when they
   differ; it leaves nothing behind but the term I. *)
From stdpp Require Import base list.
From Coq Require Import ZArith.
From Verif Require Import Arith DecArith Geom Monad Tree Heapq State Sweep Finish.

Ltac same a b :=
  let x := eval vm_compute in a in let y := eval vm_compute in b in
  first [constr_eq x y | fail 1 "different results:" x y]; exact I.

Definition to_cents (a : dec) : Z :=
  if (-2 <=? de a)%Z then (dm a * 10 ^ (de a + 2))%Z else round_div (dm a) (- (de a + 2)).

Definition run_areas (polypts pts : list (pt DecArith)) : result (list Z) :=
  rbind (polygon_init DecArith polypts) (fun poly =>
  match create_diagram DecArith poly true (Z.to_nat 100000) pts (init_state DecArith (pg_points DecArith poly)) with
  | Raise e => Raise e
  | Val (s, _) => rmap (fun p => rbind (area DecArith s (Z.to_nat 10000) p) (fun a => Val (to_cents a))) (s_sites s)
  end).


Definition test_single_point_triangle_poly : list (pt DecArith) := [((mkdec (0) (0)), (mkdec (100) (0))); ((mkdec (100) (0)), (mkdec (100) (0))); ((mkdec (500) (-1)), (mkdec (0) (0)))].
Definition test_single_point_triangle_points : list (pt DecArith) := [((mkdec (50) (0)), (mkdec (50) (0)))].
Definition test_single_point_triangle_sizes : list Z := [500000]%Z.
Definition test_grid_poly : list (pt DecArith) := [((mkdec (-5) (0)), (mkdec (30) (0))); ((mkdec (30) (0)), (mkdec (30) (0))); ((mkdec (30) (0)), (mkdec (-5) (0))); ((mkdec (-5) (0)), (mkdec (-5) (0)))].
Definition test_grid_points : list (pt DecArith) := [((mkdec (0) (0)), (mkdec (25) (0))); ((mkdec (5) (0)), (mkdec (25) (0))); ((mkdec (10) (0)), (mkdec (25) (0))); ((mkdec (15) (0)), (mkdec (25) (0))); ((mkdec (20) (0)), (mkdec (25) (0))); ((mkdec (0) (0)), (mkdec (20) (0))); ((mkdec (5) (0)), (mkdec (20) (0))); ((mkdec (10) (0)), (mkdec (20) (0))); ((mkdec (15) (0)), (mkdec (20) (0))); ((mkdec (20) (0)), (mkdec (20) (0))); ((mkdec (0) (0)), (mkdec (15) (0))); ((mkdec (5) (0)), (mkdec (15) (0))); ((mkdec (10) (0)), (mkdec (15) (0))); ((mkdec (15) (0)), (mkdec (15) (0))); ((mkdec (20) (0)), (mkdec (15) (0))); ((mkdec (0) (0)), (mkdec (10) (0))); ((mkdec (5) (0)), (mkdec (10) (0))); ((mkdec (10) (0)), (mkdec (10) (0))); ((mkdec (15) (0)), (mkdec (10) (0))); ((mkdec (20) (0)), (mkdec (10) (0))); ((mkdec (0) (0)), (mkdec (5) (0))); ((mkdec (5) (0)), (mkdec (5) (0))); ((mkdec (10) (0)), (mkdec (5) (0))); ((mkdec (15) (0)), (mkdec (5) (0))); ((mkdec (20) (0)), (mkdec (5) (0)))].
Definition test_grid_sizes : list Z := [5625; 3750; 3750; 3750; 9375; 3750; 2500; 2500; 2500; 6250; 3750; 2500; 2500; 2500; 6250; 3750; 2500; 2500; 2500; 6250; 9375; 6250; 6250; 6250; 15625]%Z.
Definition test_diamond_poly : list (pt DecArith) := [((mkdec (0) (0)), (mkdec (10) (0))); ((mkdec (10) (0)), (mkdec (10) (0))); ((mkdec (10) (0)), (mkdec (0) (0))); ((mkdec (0) (0)), (mkdec (0) (0)))].
Definition test_diamond_points : list (pt DecArith) := [((mkdec (5) (0)), (mkdec (75) (-1))); ((mkdec (25) (-1)), (mkdec (5) (0))); ((mkdec (75) (-1)), (mkdec (5) (0))); ((mkdec (5) (0)), (mkdec (25) (-1)))].
Definition test_diamond_sizes : list Z := [2500; 2500; 2500; 2500]%Z.
Definition test_martijn_poly : list (pt DecArith) := [((mkdec (-1) (0)), (mkdec (26) (0))); ((mkdec (26) (0)), (mkdec (26) (0))); ((mkdec (26) (0)), (mkdec (-1) (0))); ((mkdec (-1) (0)), (mkdec (-1) (0)))].
Definition test_martijn_points : list (pt DecArith) := [((mkdec (2241) (-3)), (mkdec (3594) (-3))); ((mkdec (3568) (-3)), (mkdec (3968) (-3))); ((mkdec (6401) (-3)), (mkdec (16214) (-3))); ((mkdec (2925) (-3)), (mkdec (18298) (-3)))].
Definition test_martijn_sizes : list Z := [4286; 20930; 38084; 9600]%Z.
Definition test_roel_poly : list (pt DecArith) := [((mkdec (0) (0)), (mkdec (30) (0))); ((mkdec (30) (0)), (mkdec (30) (0))); ((mkdec (30) (0)), (mkdec (0) (0))); ((mkdec (0) (0)), (mkdec (0) (0)))].
Definition test_roel_points : list (pt DecArith) := [((mkdec (8333) (-3)), (mkdec (8333) (-3))); ((mkdec (8333) (-3)), (mkdec (26) (0))); ((mkdec (16667) (-3)), (mkdec (8333) (-3))); ((mkdec (26) (0)), (mkdec (17667) (-3)))].
Definition test_roel_sizes : list Z := [21458; 22905; 22156; 23480]%Z.
Definition test_desmos_poly : list (pt DecArith) := [((mkdec (0) (0)), (mkdec (25) (0))); ((mkdec (25) (0)), (mkdec (25) (0))); ((mkdec (25) (0)), (mkdec (0) (0))); ((mkdec (0) (0)), (mkdec (0) (0)))].
Definition test_desmos_points : list (pt DecArith) := [((mkdec (46) (-1)), (mkdec (1144) (-2))); ((mkdec (10) (0)), (mkdec (1544) (-2))); ((mkdec (10) (0)), (mkdec (3) (0))); ((mkdec (127) (-1)), (mkdec (106) (-1))); ((mkdec (87) (-1)), (mkdec (77) (-1))); ((mkdec (139) (-1)), (mkdec (676) (-2))); ((mkdec (71) (-1)), (mkdec (424) (-2))); ((mkdec (23) (-1)), (mkdec (12) (0))); ((mkdec (12) (0)), (mkdec (12) (-1))); ((mkdec (53) (-1)), (mkdec (2) (0))); ((mkdec (34) (-1)), (mkdec (29) (-1))); ((mkdec (78) (-1)), (mkdec (84) (-1)))].
Definition test_desmos_sizes : list Z := [2601; 20248; 1587; 9595; 1232; 10889; 1405; 5778; 3134; 1208; 3121; 1703]%Z.
Definition test_rounding_errors_poly : list (pt DecArith) := [((mkdec (0) (0)), (mkdec (25) (0))); ((mkdec (25) (0)), (mkdec (25) (0))); ((mkdec (25) (0)), (mkdec (0) (0))); ((mkdec (0) (0)), (mkdec (0) (0)))].
Definition test_rounding_errors_points : list (pt DecArith) := [((mkdec (10) (0)), (mkdec (3) (0))); ((mkdec (139) (-1)), (mkdec (676) (-2))); ((mkdec (12) (0)), (mkdec (12) (-1)))].
Definition test_rounding_errors_sizes : list Z := [12859; 46507; 3134]%Z.
Definition test_corners_poly : list (pt DecArith) := [((mkdec (0) (0)), (mkdec (10) (0))); ((mkdec (10) (0)), (mkdec (10) (0))); ((mkdec (10) (0)), (mkdec (0) (0))); ((mkdec (0) (0)), (mkdec (0) (0)))].
Definition test_corners_points : list (pt DecArith) := [((mkdec (0) (0)), (mkdec (10) (0))); ((mkdec (10) (0)), (mkdec (0) (0))); ((mkdec (0) (0)), (mkdec (0) (0))); ((mkdec (10) (0)), (mkdec (10) (0)))].
Definition test_corners_sizes : list Z := [2500; 2500; 2500; 2500]%Z.
Definition test_horizontal_poly : list (pt DecArith) := [((mkdec (0) (0)), (mkdec (10) (0))); ((mkdec (8) (0)), (mkdec (10) (0))); ((mkdec (8) (0)), (mkdec (0) (0))); ((mkdec (0) (0)), (mkdec (0) (0)))].
Definition test_horizontal_points : list (pt DecArith) := [((mkdec (2) (0)), (mkdec (25) (-1))); ((mkdec (4) (0)), (mkdec (25) (-1))); ((mkdec (6) (0)), (mkdec (25) (-1)))].
Definition test_horizontal_sizes : list Z := [3000; 2000; 3000]%Z.
Definition test_left_arc_poly : list (pt DecArith) := [((mkdec (0) (0)), (mkdec (25) (0))); ((mkdec (25) (0)), (mkdec (25) (0))); ((mkdec (25) (0)), (mkdec (0) (0))); ((mkdec (0) (0)), (mkdec (0) (0)))].
Definition test_left_arc_points : list (pt DecArith) := [((mkdec (3125) (-3)), (mkdec (3125) (-3))); ((mkdec (9375) (-3)), (mkdec (3125) (-3))); ((mkdec (15625) (-3)), (mkdec (3125) (-3))); ((mkdec (21875) (-3)), (mkdec (3125) (-3))); ((mkdec (3125) (-3)), (mkdec (9375) (-3)))].
Definition test_left_arc_sizes : list Z := [3906; 5859; 11719; 15625; 25391]%Z.
Definition test_multi_diamond_poly : list (pt DecArith) := [((mkdec (-1) (0)), (mkdec (26) (0))); ((mkdec (26) (0)), (mkdec (26) (0))); ((mkdec (26) (0)), (mkdec (-1) (0))); ((mkdec (-1) (0)), (mkdec (-1) (0)))].
Definition test_multi_diamond_points : list (pt DecArith) := [((mkdec (3125) (-3)), (mkdec (3125) (-3))); ((mkdec (9375) (-3)), (mkdec (3125) (-3))); ((mkdec (15625) (-3)), (mkdec (3125) (-3))); ((mkdec (21875) (-3)), (mkdec (3125) (-3))); ((mkdec (3125) (-3)), (mkdec (9375) (-3))); ((mkdec (9375) (-3)), (mkdec (9375) (-3))); ((mkdec (15625) (-3)), (mkdec (9375) (-3))); ((mkdec (21875) (-3)), (mkdec (9375) (-3))); ((mkdec (3125) (-3)), (mkdec (15625) (-3))); ((mkdec (9375) (-3)), (mkdec (15625) (-3))); ((mkdec (15625) (-3)), (mkdec (15625) (-3))); ((mkdec (21875) (-3)), (mkdec (15625) (-3))); ((mkdec (3125) (-3)), (mkdec (21875) (-3))); ((mkdec (9375) (-3)), (mkdec (21875) (-3))); ((mkdec (15625) (-3)), (mkdec (21875) (-3))); ((mkdec (21875) (-3)), (mkdec (21875) (-3))); ((mkdec (625) (-2)), (mkdec (1875) (-2))); ((mkdec (125) (-1)), (mkdec (1875) (-2))); ((mkdec (1875) (-2)), (mkdec (1875) (-2))); ((mkdec (625) (-2)), (mkdec (125) (-1))); ((mkdec (125) (-1)), (mkdec (125) (-1))); ((mkdec (1875) (-2)), (mkdec (125) (-1))); ((mkdec (625) (-2)), (mkdec (625) (-2))); ((mkdec (125) (-1)), (mkdec (625) (-2))); ((mkdec (1875) (-2)), (mkdec (625) (-2))); ((mkdec (0) (-1)), (mkdec (125) (-1))); ((mkdec (0) (-1)), (mkdec (1875) (-2))); ((mkdec (625) (-2)), (mkdec (250) (-1))); ((mkdec (125) (-1)), (mkdec (250) (-1))); ((mkdec (1875) (-2)), (mkdec (250) (-1))); ((mkdec (250) (-1)), (mkdec (1875) (-2)))].
Definition test_multi_diamond_sizes : list Z := [4768; 3555; 3555; 4768; 2704; 1953; 1953; 3555; 1953; 1953; 1953; 2704; 3066; 1953; 1953; 3066; 1953; 1953; 1953; 1953; 1953; 1953; 1953; 1953; 1953; 1652; 1652; 1652; 1602; 1652; 1702]%Z.
Definition test_triangle_from_left_poly : list (pt DecArith) := [((mkdec (0) (0)), (mkdec (100) (0))); ((mkdec (100) (0)), (mkdec (100) (0))); ((mkdec (500) (-1)), (mkdec (0) (0)))].
Definition test_triangle_from_left_points : list (pt DecArith) := [((mkdec (13) (0)), (mkdec (93) (0))); ((mkdec (20) (0)), (mkdec (89) (0))); ((mkdec (33) (0)), (mkdec (69) (0)))].
Definition test_triangle_from_left_sizes : list Z := [21859; 62968; 415173]%Z.
Definition test_triangle_from_right_poly : list (pt DecArith) := [((mkdec (0) (0)), (mkdec (100) (0))); ((mkdec (100) (0)), (mkdec (100) (0))); ((mkdec (500) (-1)), (mkdec (0) (0)))].
Definition test_triangle_from_right_points : list (pt DecArith) := [((mkdec (87) (0)), (mkdec (93) (0))); ((mkdec (80) (0)), (mkdec (89) (0))); ((mkdec (67) (0)), (mkdec (69) (0)))].
Definition test_triangle_from_right_sizes : list Z := [21859; 62968; 415173]%Z.
Definition test_lines_outside_triangle_poly : list (pt DecArith) := [((mkdec (0) (0)), (mkdec (100) (0))); ((mkdec (100) (0)), (mkdec (100) (0))); ((mkdec (500) (-1)), (mkdec (0) (0)))].
Definition test_lines_outside_triangle_points : list (pt DecArith) := [((mkdec (57) (0)), (mkdec (75) (0))); ((mkdec (35) (0)), (mkdec (85) (0))); ((mkdec (92) (0)), (mkdec (98) (0))); ((mkdec (81) (0)), (mkdec (87) (0)))].
Definition test_lines_outside_triangle_sizes : list Z := [259011; 158977; 14700; 67312]%Z.
Definition test_another_line_outside_triangle_poly : list (pt DecArith) := [((mkdec (0) (0)), (mkdec (100) (0))); ((mkdec (100) (0)), (mkdec (100) (0))); ((mkdec (500) (-1)), (mkdec (0) (0)))].
Definition test_another_line_outside_triangle_points : list (pt DecArith) := [((mkdec (54) (0)), (mkdec (90) (0))); ((mkdec (5) (0)), (mkdec (95) (0))); ((mkdec (16) (0)), (mkdec (85) (0)))].
Definition test_another_line_outside_triangle_sizes : list Z := [349008; 13619; 137373]%Z.
Definition test_max_distance_poly : list (pt DecArith) := [((mkdec (0) (0)), (mkdec (100) (0))); ((mkdec (100) (0)), (mkdec (100) (0))); ((mkdec (500) (-1)), (mkdec (0) (0)))].
Definition test_max_distance_points : list (pt DecArith) := [((mkdec (45) (0)), (mkdec (13) (0))); ((mkdec (57) (0)), (mkdec (71) (0))); ((mkdec (39) (0)), (mkdec (82) (0))); ((mkdec (61) (0)), (mkdec (81) (0)))].
Definition test_max_distance_sizes : list Z := [89909; 129922; 162942; 117227]%Z.
Definition test_calc_cell_sizes_poly : list (pt DecArith) := [((mkdec (0) (0)), (mkdec (100) (0))); ((mkdec (100) (0)), (mkdec (100) (0))); ((mkdec (500) (-1)), (mkdec (0) (0)))].
Definition test_calc_cell_sizes_points : list (pt DecArith) := [((mkdec (45) (0)), (mkdec (13) (0))); ((mkdec (43) (0)), (mkdec (85) (0))); ((mkdec (39) (0)), (mkdec (82) (0))); ((mkdec (22) (0)), (mkdec (95) (0))); ((mkdec (27) (0)), (mkdec (90) (0)))].
Definition test_calc_cell_sizes_sizes : list Z := [116140; 195877; 112836; 34133; 41013]%Z.
Definition test_alexdiab_poly : list (pt DecArith) := [((mkdec (0) (0)), (mkdec (0) (0))); ((mkdec (0) (0)), (mkdec (6) (0))); ((mkdec (9) (0)), (mkdec (0) (0))); ((mkdec (9) (0)), (mkdec (6) (0)))].
Definition test_alexdiab_points : list (pt DecArith) := [((mkdec (345) (-2)), (mkdec (366) (-2))); ((mkdec (60) (-1)), (mkdec (454) (-2))); ((mkdec (782) (-2)), (mkdec (535) (-2))); ((mkdec (565) (-2)), (mkdec (309) (-2))); ((mkdec (199) (-2)), (mkdec (466) (-2)))].
Definition test_alexdiab_sizes : list Z := [1404; 563; 611; 1666; 1157]%Z.
Definition test_mars0001_1_poly : list (pt DecArith) := [((mkdec (150) (-1)), (mkdec (150) (-1))); ((mkdec (150) (-1)), (mkdec (300) (-1))); ((mkdec (300) (-1)), (mkdec (300) (-1))); ((mkdec (300) (-1)), (mkdec (150) (-1)))].
Definition test_mars0001_1_points : list (pt DecArith) := [((mkdec (201273) (-4)), (mkdec (187303) (-4))); ((mkdec (265107) (-4)), (mkdec (187303) (-4))); ((mkdec (201273) (-4)), (mkdec (238437) (-4))); ((mkdec (265107) (-4)), (mkdec (238437) (-4)))].
Definition test_mars0001_1_sizes : list Z := [5230; 4200; 7248; 5821]%Z.
Definition test_mars0001_2_poly : list (pt DecArith) := [((mkdec (0) (0)), (mkdec (-10) (0))); ((mkdec (0) (-1)), (mkdec (350) (-1))); ((mkdec (350) (-1)), (mkdec (350) (-1))); ((mkdec (350) (-1)), (mkdec (-100) (-1)))].
Definition test_mars0001_2_points : list (pt DecArith) := [((mkdec (3308) (-4)), (mkdec (204) (-3))); ((mkdec (101432) (-4)), (mkdec (204) (-3))); ((mkdec (199556) (-4)), (mkdec (204) (-3))); ((mkdec (29768) (-3)), (mkdec (204) (-3))); ((mkdec (3308) (-4)), (mkdec (7942) (-3))); ((mkdec (101432) (-4)), (mkdec (7942) (-3))); ((mkdec (199556) (-4)), (mkdec (7942) (-3))); ((mkdec (29768) (-3)), (mkdec (7942) (-3))); ((mkdec (3308) (-4)), (mkdec (156801) (-4))); ((mkdec (101432) (-4)), (mkdec (156801) (-4))); ((mkdec (199556) (-4)), (mkdec (156801) (-4))); ((mkdec (29768) (-3)), (mkdec (156801) (-4))); ((mkdec (3308) (-4)), (mkdec (234181) (-4))); ((mkdec (101432) (-4)), (mkdec (234181) (-4))); ((mkdec (199556) (-4)), (mkdec (234181) (-4))); ((mkdec (29768) (-3)), (mkdec (234181) (-4)))].
Definition test_mars0001_2_sizes : list Z := [7370; 13809; 13809; 14267; 4052; 7593; 7593; 7845; 4052; 7593; 7593; 7845; 8092; 15161; 15161; 15664]%Z.
Definition test_large_grid_poly : list (pt DecArith) := [((mkdec (0) (0)), (mkdec (-10) (0))); ((mkdec (0) (-1)), (mkdec (350) (-1))); ((mkdec (350) (-1)), (mkdec (350) (-1))); ((mkdec (350) (-1)), (mkdec (-100) (-1)))].
Definition test_large_grid_points : list (pt DecArith) := [((mkdec (3308) (-4)), (mkdec (204) (-3))); ((mkdec (45361) (-4)), (mkdec (204) (-3))); ((mkdec (87414) (-4)), (mkdec (204) (-3))); ((mkdec (129467) (-4)), (mkdec (204) (-3))); ((mkdec (171521) (-4)), (mkdec (204) (-3))); ((mkdec (213574) (-4)), (mkdec (204) (-3))); ((mkdec (255627) (-4)), (mkdec (204) (-3))); ((mkdec (29768) (-3)), (mkdec (204) (-3))); ((mkdec (3308) (-4)), (mkdec (35203) (-4))); ((mkdec (45361) (-4)), (mkdec (35203) (-4))); ((mkdec (87414) (-4)), (mkdec (35203) (-4))); ((mkdec (129467) (-4)), (mkdec (35203) (-4))); ((mkdec (171521) (-4)), (mkdec (35203) (-4))); ((mkdec (213574) (-4)), (mkdec (35203) (-4))); ((mkdec (255627) (-4)), (mkdec (35203) (-4))); ((mkdec (29768) (-3)), (mkdec (35203) (-4))); ((mkdec (3308) (-4)), (mkdec (68366) (-4))); ((mkdec (45361) (-4)), (mkdec (68366) (-4))); ((mkdec (87414) (-4)), (mkdec (68366) (-4))); ((mkdec (129467) (-4)), (mkdec (68366) (-4))); ((mkdec (171521) (-4)), (mkdec (68366) (-4))); ((mkdec (213574) (-4)), (mkdec (68366) (-4))); ((mkdec (255627) (-4)), (mkdec (68366) (-4))); ((mkdec (29768) (-3)), (mkdec (68366) (-4))); ((mkdec (3308) (-4)), (mkdec (101529) (-4))); ((mkdec (45361) (-4)), (mkdec (101529) (-4))); ((mkdec (87414) (-4)), (mkdec (101529) (-4))); ((mkdec (129467) (-4)), (mkdec (101529) (-4))); ((mkdec (171521) (-4)), (mkdec (101529) (-4))); ((mkdec (213574) (-4)), (mkdec (101529) (-4))); ((mkdec (255627) (-4)), (mkdec (101529) (-4))); ((mkdec (29768) (-3)), (mkdec (101529) (-4))); ((mkdec (3308) (-4)), (mkdec (134692) (-4))); ((mkdec (45361) (-4)), (mkdec (134692) (-4))); ((mkdec (87414) (-4)), (mkdec (134692) (-4))); ((mkdec (129467) (-4)), (mkdec (134692) (-4))); ((mkdec (171521) (-4)), (mkdec (134692) (-4))); ((mkdec (213574) (-4)), (mkdec (134692) (-4))); ((mkdec (255627) (-4)), (mkdec (134692) (-4))); ((mkdec (29768) (-3)), (mkdec (134692) (-4))); ((mkdec (3308) (-4)), (mkdec (167855) (-4))); ((mkdec (45361) (-4)), (mkdec (167855) (-4))); ((mkdec (87414) (-4)), (mkdec (167855) (-4))); ((mkdec (129467) (-4)), (mkdec (167855) (-4))); ((mkdec (171521) (-4)), (mkdec (167855) (-4))); ((mkdec (213574) (-4)), (mkdec (167855) (-4))); ((mkdec (255627) (-4)), (mkdec (167855) (-4))); ((mkdec (29768) (-3)), (mkdec (167855) (-4))); ((mkdec (3308) (-4)), (mkdec (201018) (-4))); ((mkdec (45361) (-4)), (mkdec (201018) (-4))); ((mkdec (87414) (-4)), (mkdec (201018) (-4))); ((mkdec (129467) (-4)), (mkdec (201018) (-4))); ((mkdec (171521) (-4)), (mkdec (201018) (-4))); ((mkdec (213574) (-4)), (mkdec (201018) (-4))); ((mkdec (255627) (-4)), (mkdec (201018) (-4))); ((mkdec (29768) (-3)), (mkdec (201018) (-4))); ((mkdec (3308) (-4)), (mkdec (234181) (-4))); ((mkdec (45361) (-4)), (mkdec (234181) (-4))); ((mkdec (87414) (-4)), (mkdec (234181) (-4))); ((mkdec (129467) (-4)), (mkdec (234181) (-4))); ((mkdec (171521) (-4)), (mkdec (234181) (-4))); ((mkdec (213574) (-4)), (mkdec (234181) (-4))); ((mkdec (255627) (-4)), (mkdec (234181) (-4))); ((mkdec (29768) (-3)), (mkdec (234181) (-4)))].
Definition test_large_grid_sizes : list Z := [2887; 4988; 4988; 4988; 4988; 4988; 4988; 8700; 807; 1395; 1395; 1395; 1395; 1395; 1395; 2432; 807; 1395; 1395; 1395; 1395; 1395; 1395; 2432; 807; 1395; 1395; 1395; 1395; 1395; 1395; 2432; 807; 1395; 1395; 1395; 1395; 1395; 1395; 2432; 807; 1395; 1395; 1395; 1395; 1395; 1395; 2432; 807; 1395; 1395; 1395; 1395; 1395; 1395; 2432; 3222; 5568; 5568; 5568; 5568; 5568; 5568; 9711]%Z.

Definition test_single_point_triangle_ran : True := ltac:(same (run_areas test_single_point_triangle_poly test_single_point_triangle_points) (Val test_single_point_triangle_sizes)).
Definition test_grid_ran : True := ltac:(same (run_areas test_grid_poly test_grid_points) (Val test_grid_sizes)).
Definition test_diamond_ran : True := ltac:(same (run_areas test_diamond_poly test_diamond_points) (Val test_diamond_sizes)).
Definition test_martijn_ran : True := ltac:(same (run_areas test_martijn_poly test_martijn_points) (Val test_martijn_sizes)).
Definition test_roel_ran : True := ltac:(same (run_areas test_roel_poly test_roel_points) (Val test_roel_sizes)).
Definition test_desmos_ran : True := ltac:(same (run_areas test_desmos_poly test_desmos_points) (Val test_desmos_sizes)).
Definition test_rounding_errors_ran : True := ltac:(same (run_areas test_rounding_errors_poly test_rounding_errors_points) (Val test_rounding_errors_sizes)).
Definition test_corners_ran : True := ltac:(same (run_areas test_corners_poly test_corners_points) (Val test_corners_sizes)).
Definition test_horizontal_ran : True := ltac:(same (run_areas test_horizontal_poly test_horizontal_points) (Val test_horizontal_sizes)).
Definition test_left_arc_ran : True := ltac:(same (run_areas test_left_arc_poly test_left_arc_points) (Val test_left_arc_sizes)).
Definition test_multi_diamond_ran : True := ltac:(same (run_areas test_multi_diamond_poly test_multi_diamond_points) (Val test_multi_diamond_sizes)).
Definition test_triangle_from_left_ran : True := ltac:(same (run_areas test_triangle_from_left_poly test_triangle_from_left_points) (Val test_triangle_from_left_sizes)).
Definition test_triangle_from_right_ran : True := ltac:(same (run_areas test_triangle_from_right_poly test_triangle_from_right_points) (Val test_triangle_from_right_sizes)).
Definition test_lines_outside_triangle_ran : True := ltac:(same (run_areas test_lines_outside_triangle_poly test_lines_outside_triangle_points) (Val test_lines_outside_triangle_sizes)).
Definition test_another_line_outside_triangle_ran : True := ltac:(same (run_areas test_another_line_outside_triangle_poly test_another_line_outside_triangle_points) (Val test_another_line_outside_triangle_sizes)).
Definition test_max_distance_ran : True := ltac:(same (run_areas test_max_distance_poly test_max_distance_points) (Val test_max_distance_sizes)).
Definition test_calc_cell_sizes_ran : True := ltac:(same (run_areas test_calc_cell_sizes_poly test_calc_cell_sizes_points) (Val test_calc_cell_sizes_sizes)).
Definition test_alexdiab_ran : True := ltac:(same (run_areas test_alexdiab_poly test_alexdiab_points) (Val test_alexdiab_sizes)).
Definition test_mars0001_1_ran : True := ltac:(same (run_areas test_mars0001_1_poly test_mars0001_1_points) (Val test_mars0001_1_sizes)).
Definition test_mars0001_2_ran : True := ltac:(same (run_areas test_mars0001_2_poly test_mars0001_2_points) (Val test_mars0001_2_sizes)).
Definition test_large_grid_ran : True := ltac:(same (run_areas test_large_grid_poly test_large_grid_points) (Val test_large_grid_sizes)).
