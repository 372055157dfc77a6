(** Model of the functions of Material that set number densities, src/physics/material.cpp.

    Float is the exact real numbers; the decimal literals are the fractions they denote.  The
    ASSERTs on the arguments have no effect in a release build.  LOG_ERROR ends the program
    (settings.hpp:29) and is [Fail].  The material is that of XSec_Model. *)
From Coq Require Import List Arith ZArith Bool Reals.
From Verif Require Import Base Loops Arith StringView_Model Zaid_Model XSec_Model.
Import ListNotations.
Local Open Scope R_scope.

(** material.cpp:17 *)
Definition n_avo_barn : R := 602214076 / 1000000000.

(** material.cpp:19-318; the masses in units of 0.00001 *)
Definition ZAID_ATOMIC_MASS_table : list (Z * Z) :=
  [ (1001, 100783); (1002, 201410); (1003, 301550); (1006, 100783); (1040, 100783); (2003, 301493);
    (2004, 400260); (3006, 601507); (3007, 701600); (4009, 901220); (5000, 1081100); (5010, 1001290);
    (5011, 1100930); (6000, 1200110); (6001, 1200110); (7014, 1400310); (8001, 1599730); (8016, 1599490);
    (9019, 1899820); (11023, 2298950); (12000, 2430510); (13027, 2698150); (14000, 2808590); (15031, 3097410);
    (16000, 3206430); (17000, 3545270); (19000, 3909860); (20000, 4007800); (22000, 4789330); (23000, 5094160);
    (24000, 5199590); (24050, 4994610); (24052, 5194020); (24053, 5294080); (24054, 5393940); (25055, 5493800);
    (26000, 5584470); (26054, 5393940); (26056, 5593450); (26057, 5693510); (26058, 5793370); (27059, 5893320);
    (28000, 5869360); (28058, 5793570); (28060, 5993080); (28061, 6093140); (28062, 6192800); (28064, 6392820);
    (29063, 6292960); (29065, 6492780); (35581, 8091630); (36582, 8191350); (36583, 8291430); (36584, 8391150);
    (36585, 8491250); (36586, 8591060); (38589, 8890780); (38590, 8990780); (39589, 8890590); (39590, 8990720);
    (39591, 9090730); (40000, 9122370); (40001, 9122370); (40090, 8990470); (40091, 9090560); (40092, 9190500);
    (40094, 9390630); (40096, 9590830); (40591, 9090560); (40593, 9290640); (40595, 9490800); (40596, 9590830);
    (41093, 9290320); (41595, 9490680); (42000, 9593760); (42095, 9490590); (42595, 9490590); (42596, 9590470);
    (42597, 9690600); (42598, 9790540); (42599, 9890770); (42600, 9990730); (43599, 9890770); (44600, 9990410);
    (44601, 10090600); (44602, 10190500); (44603, 10290400); (44604, 10390300); (44605, 10491100); (44606, 10590700);
    (45103, 10290500); (45603, 10290400); (45605, 10491100); (46604, 10390400); (46605, 10490500); (46606, 10590300);
    (46607, 10690500); (46608, 10790400); (47107, 10690500); (47109, 10890500); (47609, 10890500); (47611, 11090600);
    (47710, 10990600); (48000, 11241100); (48110, 10990300); (48111, 11090400); (48112, 11190300); (48113, 11290000);
    (48114, 11390300); (48610, 10990300); (48611, 11090400); (48613, 11290000); (49000, 11481900); (49113, 11290400);
    (49115, 11490400); (49615, 11490400); (50000, 11871000); (50112, 11190400); (50114, 11390300); (50115, 11490300);
    (50116, 11590200); (50117, 11690300); (50118, 11790200); (50119, 11890300); (50120, 11990200); (50122, 12190300);
    (50124, 12390500); (50125, 12490800); (51000, 12176300); (51121, 12090900); (51123, 12290600); (51621, 12090900);
    (51625, 12490500); (51627, 12690700); (52632, 13190800); (52727, 12690500); (52729, 12890700); (53627, 12690400);
    (53629, 12890500); (53631, 13090600); (53635, 13490900); (54628, 12790300); (54630, 12990400); (54631, 13090600);
    (54632, 13190300); (54633, 13290600); (54634, 13391000); (54635, 13490700); (54636, 13590700); (55633, 13290600);
    (55634, 13390700); (55635, 13490600); (55636, 13590600); (55637, 13690700); (56634, 13390400); (56637, 13690600);
    (56640, 13991000); (57639, 13890300); (57640, 13991000); (58640, 13990500); (58641, 14091100); (58642, 14190900);
    (58643, 14291300); (58644, 14391400); (59641, 14090700); (59643, 14291100); (60642, 14190800); (60643, 14291000);
    (60644, 14391000); (60645, 14491300); (60646, 14591300); (60647, 14691600); (60648, 14791700); (60650, 14992100);
    (61647, 14691500); (61648, 14791700); (61649, 14891800); (61651, 15092200); (61748, 14792100); (62152, 15192000);
    (62153, 15292200); (62647, 14691500); (62648, 14791500); (62649, 14891700); (62650, 14991700); (62651, 15091900);
    (62652, 15192000); (62653, 15292200); (62654, 15392200); (63151, 15091600); (63152, 15192200); (63153, 15292200);
    (63154, 15392200); (63155, 15492100); (63156, 15592500); (63157, 15692500); (63651, 15091600); (63653, 15292200);
    (63654, 15392200); (63655, 15492100); (63656, 15592500); (63657, 15692500); (64152, 15192000); (64154, 15392100);
    (64155, 15492300); (64156, 15592300); (64157, 15692400); (64158, 15792400); (64160, 15992700); (64654, 15392100);
    (64655, 15492300); (64656, 15592300); (64657, 15692400); (64658, 15792400); (64660, 15992700); (65159, 15892500);
    (65160, 15992700); (65161, 16092800); (65659, 15892500); (65660, 15992700); (65661, 16092800); (66160, 15992500);
    (66161, 16092600); (66162, 16192700); (66163, 16292900); (66164, 16392900); (66660, 15992500); (66661, 16092600);
    (66662, 16192700); (66663, 16292900); (66664, 16392900); (67165, 16493000); (67665, 16493000); (68162, 16192900);
    (68164, 16392900); (68166, 16593000); (68167, 16693200); (68168, 16793000); (68170, 16993600); (71176, 17594100);
    (72174, 17394000); (72176, 17594100); (72177, 17694300); (72178, 17794400); (72179, 17894600); (72180, 17994700);
    (73181, 18095400); (73182, 18195000); (74000, 18384600); (74182, 18195300); (74183, 18295200); (74184, 18395000);
    (74186, 18595800); (77191, 19096000); (77193, 19296300); (79197, 19696600); (82206, 20597400); (82207, 20697600);
    (82208, 20797700); (83209, 20898000); (90230, 23003600); (90232, 23203800); (91231, 23103600); (91232, 23203800);
    (91233, 23304000); (91234, 23404300); (92232, 23203700); (92233, 23304000); (92234, 23404100); (92235, 23504400);
    (92236, 23604600); (92237, 23704900); (92238, 23805100); (93237, 23704800); (93238, 23805100); (93239, 23905300);
    (94236, 23604600); (94238, 23804900); (94239, 23905200); (94240, 24005400); (94241, 24104900); (94242, 24205800);
    (95241, 24105700); (95242, 24205900); (95243, 24306100); (95342, 24205900); (96242, 24205800); (96243, 24306100);
    (96244, 24406300); (96245, 24506500); (96246, 24606700); (96247, 24707100); (96248, 24807200); (97249, 24908000);
    (98249, 24908000); (98250, 25007600); (98251, 25108000); (98252, 25208200) ]%Z.
Definition ZAID_ATOMIC_MASS : list (Z * R) :=
  map (fun p => (fst p, IZR (snd p) / 100000)) ZAID_ATOMIC_MASS_table.

(** material.hpp:26-27: _zaid and _num_density with one more element *)
Definition emplace (m : material) (zaid : Z) (num_density' : R) : material :=
  mkMat (name_len m) (temperature m) (density m) (num_density m ++ [num_density']) (zaids m ++ [zaid]) (mxsec m).

(** material.cpp:366-383 *)
Definition addNuclide (m : material) (zaid : Z) (n : R) : outcome material :=
  if (zaid <=? 0)%Z then Fail else
  if Rleb n 0 then Fail else
  if existsb (fun z => z =? zaid)%Z (zaids m) then Fail else
  Ret (emplace m zaid n).

(** material.cpp:385-390 *)
Definition addNuclideSymbol (m : material) (symbol : list char) (n : R) : outcome material :=
  let* z := toZAID symbol in addNuclide m z n.

(** the search loops of material.cpp:400-414 and 440-448 *)
Fixpoint find_mass (l : list (Z * R)) (zaid : Z) : option R :=
  match l with
  | [] => None
  | (z, w) :: l' => if (z =? zaid)%Z then Some w else find_mass l' zaid
  end.

(** material.cpp:392-416 *)
Definition addNuclideWt (m : material) (zaid : Z) (wt : R) : outcome material :=
  match find_mass ZAID_ATOMIC_MASS zaid with
  | Some w => addNuclide m zaid (wt * density m * n_avo_barn / w)
  | None => Fail
  end.

(** material.cpp:418-423 *)
Definition addNuclideWtSymbol (m : material) (symbol : list char) (wt : R) : outcome material :=
  let* z := toZAID symbol in addNuclideWt m z wt.

(** material.cpp:425-457 *)
Definition addNuclidesAtomPercent (m : material) (symbols : list (list char)) (percents : list R) : outcome material :=
  let* mm := for_ (length symbols) 0 (fun i mm =>
    let* s := rd symbols i in
    let* zaid := toZAID s in
    match find_mass ZAID_ATOMIC_MASS zaid with
    | Some w => let* p := rd percents i in Ret (mm + p * w)
    | None => Fail
    end) 0 in
  for_ (length symbols) 0 (fun i m =>
    let* s := rd symbols i in
    let* zaid := toZAID s in
    let* percent := rd percents i in
    addNuclide m zaid (percent * density m * n_avo_barn / mm)) m.

(** material.cpp:515-537: the masses and abundances of setUO2 *)
Definition m_u234 : R := 234040946 / 1000000.
Definition m_u235 : R := 235043923 / 1000000.
Definition m_u236 : R := 236045562 / 1000000.
Definition m_u238 : R := 238050783 / 1000000.
Definition m_o16 : R := 159949146 / 10000000.
Definition m_gd152 : R := 151919786 / 1000000.
Definition m_gd154 : R := 153920861 / 1000000.
Definition m_gd155 : R := 154922618 / 1000000.
Definition m_gd156 : R := 155922118 / 1000000.
Definition m_gd157 : R := 156923956 / 1000000.
Definition m_gd158 : R := 157924019 / 1000000.
Definition m_gd160 : R := 159927049 / 1000000.
Definition ab_gd152 : R := 2 / 10 / 100.
Definition ab_gd154 : R := 218 / 100 / 100.
Definition ab_gd155 : R := 148 / 10 / 100.
Definition ab_gd156 : R := 2047 / 100 / 100.
Definition ab_gd157 : R := 1565 / 100 / 100.
Definition ab_gd158 : R := 2484 / 100 / 100.
Definition ab_gd160 : R := 2186 / 100 / 100.

(** material.cpp:497-606 *)
Definition setUO2 (m : material) (wt_u235 wt_gad : R) : outcome material :=
  let wt_u234 := 89 / 10000 * wt_u235 in
  let wt_u236 := 46 / 10000 * wt_u235 in
  let wt_u238 := 1 - (wt_u234 + wt_u235 + wt_u236) in
  let m_u := 1 / (wt_u235 / m_u235 + wt_u234 / m_u234 + wt_u236 / m_u236 + wt_u238 / m_u238) in
  let m_uo2 := m_u + 2 * m_o16 in
  let wt_uo2 := 1 - wt_gad in
  let n_uo2 := wt_uo2 * density m * n_avo_barn / m_uo2 in
  let n_u := n_uo2 in
  let n_o := 2 * n_uo2 in
  let u_denom := wt_u234 / m_u234 + wt_u235 / m_u235 + wt_u236 / m_u236 + wt_u238 / m_u238 in
  let at_u234 := (wt_u234 / m_u234) / u_denom in
  let at_u235 := (wt_u235 / m_u235) / u_denom in
  let at_u236 := (wt_u236 / m_u236) / u_denom in
  let at_u238 := (wt_u238 / m_u238) / u_denom in
  let n_u234 := at_u234 * n_u in
  let n_u235 := at_u235 * n_u in
  let n_u236 := at_u236 * n_u in
  let n_u238 := at_u238 * n_u in
  let* m := addNuclide m 92234 n_u234 in
  let* m := addNuclide m 92235 n_u235 in
  let* m := addNuclide m 92236 n_u236 in
  let* m := addNuclide m 92238 n_u238 in
  let m_gad := ab_gd152 * m_gd152 + ab_gd154 * m_gd154 + ab_gd155 * m_gd155 + ab_gd156 * m_gd156 +
    ab_gd157 * m_gd157 + ab_gd158 * m_gd158 + ab_gd160 * m_gd160 in
  let m_gd2o3 := 2 * m_gad + 3 * m_o16 in
  let n_gad := wt_gad * density m * n_avo_barn / m_gd2o3 in
  let n_gd := 2 * n_gad in
  let n_o := n_o + 3 * n_gad in
  let* m :=
    if Rltb 0 n_gd then
      let* m := addNuclide m 64152 (ab_gd152 * n_gd) in
      let* m := addNuclide m 64154 (ab_gd154 * n_gd) in
      let* m := addNuclide m 64155 (ab_gd155 * n_gd) in
      let* m := addNuclide m 64156 (ab_gd156 * n_gd) in
      let* m := addNuclide m 64157 (ab_gd157 * n_gd) in
      let* m := addNuclide m 64158 (ab_gd158 * n_gd) in
      addNuclide m 64160 (ab_gd160 * n_gd)
    else Ret m in
  addNuclide m 8016 n_o.
