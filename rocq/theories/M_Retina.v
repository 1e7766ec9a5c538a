(** Model of raytools/evaluate/retina.py: the point spread estimate of the eye and retinal cell densities.
    Arrays are modelled one entry at a time. *)
From Verif Require Import Base BaseX.
Local Open Scope R_scope.

(** retina.py:11-20 [hpsf] *)
Definition hpsf (fwhm x : R) : R := square (fwhm / 2) / (square x + square (fwhm / 2)).
(** np.sqrt. Used at retina.py:23-66 *)
Definition xsqrt (a : xr) : xr :=
  match a with Fin r => if Rltb r 0 then NaN else Fin (sqrt r) | PInf => PInf | _ => NaN end.
(** retina.py:23-26 [inv_hpsf] *)
Definition inv_hpsf (fwhm y : R) : xr :=
  xsqrt (xadd (xdiv (Fin (square (fwhm / 2))) (Fin y)) (Fin (- square (fwhm / 2)))).
(** the default of retina.py:23, 29 *)
Definition fwhm0 : R := 0.183333.
(** the default of retina.py:23, 29 *)
Definition lmin0 : R := 279.33.
(** retina.py:29-56 [blur_sun]; a source without area gives inf, or nan when nothing is added to it *)
Definition blur_sun (fwhm lmin omega lmax : R) : xr :=
  let r0 := sqrt (omega / PI) * 180 / PI in
  let lmax := Rmax (Rmin lmax (lmin / hpsf fwhm0 1)) lmin in
  let r := xadd (Fin r0) (inv_hpsf fwhm (lmin / lmax)) in
  let q := xdiv r (Fin r0) in
  xmul q q.

(** retina.py:71-102 [rgcf_density_on_meridian]: the three coefficients of each meridian (temporal, superior,
    nasal, inferior). The foveal density multiplies the first term only, as in the code (lines 101-102). *)
Definition mrdc (mi : nat) : R * R * R :=
  match mi with
  | 0%nat => (0.9851255243509307, 1.057910790284875, 22.139309670912258)
  | 1%nat => (0.9934935604656688, 1.0354962329628912, 16.346430181031927)
  | 2%nat => (0.9729319961934142, 1.0841663616483523, 7.632575316432455)
  | _ => (0.9960391452747578, 0.993222146189384, 12.131840717293096)
  end.
(** retina.py:71-102 *)
Definition rgcf_density_on_meridian (deg : R) (mi : nat) : R :=
  let '(a, r2, re) := mrdc mi in
  33162.4 * a * / square (1 + deg / r2) + (1 - a) * exp (- deg / re).

(** np.interp(x, xp, fp): constant outside the table, linear between the last abscissa <= x and the next
    Used at retina.py:105-132 *)
Fixpoint np_interp_from (x x0 y0 : R) (l : list (R * R)) : R :=
  match l with
  | [] => y0
  | (x1, y1) :: l => if Rltb x x1 then y0 + (y1 - y0) / (x1 - x0) * (x - x0) else np_interp_from x x1 y1 l
  end.
(** used at retina.py:105-132 *)
Definition np_interp (x : R) (l : list (R * R)) : R :=
  match l with
  | [] => 0
  | (x0, y0) :: l => if Rltb x x0 then y0 else np_interp_from x x0 y0 l
  end.
(** retina.py:225-352 _curcio_nozero, temporal meridian *)
Definition curcio_temporal : list (R * R) :=
  [(0.18593923369252877, 44.04486724637118); (0.3717178308822736, 93.27509002277617);
   (0.5573316409090776, 198.78698645599684); (0.7427764977750474, 345.14206545230155);
   (1.1131426529212247, 1016.4921674895295); (1.4827829593647686, 1460.4333317652136);
   (1.8516644783823826, 1828.1252513740205); (2.2197552940730496, 1960.6584606225276);
   (2.5870255432599225, 2085.475117966171); (2.953449149712472, 2217.2767820329545);
   (3.31900679290571, 2342.4640796660046); (3.6836910241589105, 2374.660330589903);
   (5.496092431124066, 2069.255695654906); (7.309190492700514, 1282.5353001727826);
   (9.142240526078217, 751.4476414029601); (10.994765968171452, 492.43006927557184);
   (18.522503804692484, 244.45459692983894); (22.312720415066067, 226.03104078393105);
   (26.097857900564726, 209.0325120219425); (29.870308487985934, 181.4036385525174);
   (33.62997699705354, 143.7728154334466); (37.38428195373141, 110.33967350723363);
   (41.148156075669945, 90.3683973832319); (44.944046636790006, 79.71178905772537);
   (48.80191581130344, 69.9320213451311); (52.75924101405819, 61.47100679480568);
   (56.86101523023512, 53.48768790671183); (61.159747316488954, 46.62792067725425);
   (65.71546224905477, 38.43392514810544); (70.5957012915439, 30.498345341427296);
   (75.87552205717101, 23.54151243161036); (81.63749844776936, 15.280986323342862);
   (87.97172046481518, 10.732960056617229)].
(** retina.py:225-352 _curcio_nozero, superior meridian *)
Definition curcio_superior : list (R * R) :=
  [(0.550233963180544, 28.588082376804778); (0.7335011377041551, 119.37582656017271);
   (1.0998704064881881, 700.1324809546082); (1.4660819859706975, 1375.1623704831711);
   (1.8322149031328192, 1848.0020695754924); (2.1983507190480474, 2044.233823113446);
   (2.564570904219949, 2092.6703340121226); (2.9309542225042526, 2098.755365542933);
   (3.2975743653080882, 2112.379709683535); (3.664498030757884, 2039.0232001188388);
   (5.505390523026586, 1387.2230758663704); (7.358901171835787, 871.9981716115124);
   (9.224896045436125, 590.3718199737535); (11.101263681414402, 431.9496814466633);
   (14.874340393583799, 241.0785460949621); (18.658178224708905, 156.73195466309647);
   (22.43835579663088, 114.03852703528533); (26.20747855963523, 97.00162933290599);
   (29.965510328268024, 75.5295020408025); (33.7198675919376, 60.035746714586786);
   (37.48545310663173, 43.94237419037801); (41.28467077707197, 31.26095732464047);
   (45.14743387650181, 26.46259676627039); (49.111170564943365, 23.901916201454696);
   (53.220828095818824, 21.387873950004174); (57.52887615397506, 18.80405892440746);
   (62.095309375899646, 15.789364331254303); (66.98764894026573, 12.10655110734033);
   (72.28094307870904, 8.770651414360177); (78.05776640401032, 7.352182662490541);
   (84.40821806124717, 5.3828977637443405)].
(** retina.py:225-352 _curcio_nozero, nasal meridian *)
Definition curcio_nasal : list (R * R) :=
  [(0.18609574024132236, 13.642224855792355); (0.3723438821360879, 49.018225489997356);
   (0.5587403493942099, 119.42980837318217); (0.7452810972349723, 303.3539776112752);
   (1.1187794270092395, 820.236588824208); (1.492807224442807, 1250.5519036556952);
   (1.8673334627883122, 1593.832907000932); (2.2423277698263666, 1692.332668322065);
   (2.617760452197751, 1806.4929444368368); (2.9936025129379713, 1926.5199197102822);
   (3.369825664284743, 2012.1877464547917); (3.7464023371508843, 2015.0019767880601);
   (5.6336746771345725, 1707.4759437387086); (7.526071665400324, 1210.7695431481452);
   (9.420978792024693, 833.677620814168); (11.316249083753902, 586.3104294462349);
   (15.101635111623818, 283.2349068144286); (18.87443425652101, 165.84758925059035);
   (22.63436212527552, 115.59487769209959); (26.388647406362324, 76.9537932292463);
   (30.152032737336533, 55.009907495087226); (33.94677525485396, 41.8629871004271);
   (37.80264703601664, 30.820864683843475); (41.75693549104231, 24.99016095054558);
   (45.85444371717299, 20.110113240656887); (50.147490801803194, 16.840968392033965);
   (54.695912052189826, 12.931766264533087); (59.567059126021746, 10.026405148168433);
   (64.83580004103732, 8.62649206015602)].
(** retina.py:225-352 _curcio_nozero, inferior meridian *)
Definition curcio_inferior : list (R * R) :=
  [(0.1835809385909668, 37.391520240434666); (0.3672580363229842, 90.12699185434538);
   (0.5510372355174309, 249.437121068217); (0.7349238911274849, 493.2108300406277);
   (1.1030380830755004, 1082.453292457224); (1.471631994701548, 1610.2758922129483);
   (1.8407284168030345, 1983.3089650782533); (2.2103423139296576, 2031.5422102177708);
   (2.5804817064036194, 2069.678912807843); (2.951148586786319, 2105.454751383192);
   (3.322339812544252, 2100.948307894678); (3.6940479379285027, 1988.5925574830246);
   (5.559867472191449, 1348.2086272974666); (7.436093405865805, 727.5067813469979);
   (9.320030408557752, 490.5855896552269); (11.209002125908963, 312.92986055035055);
   (14.992807030840048, 144.1646454133318); (18.77304101986144, 94.74293408347762);
   (22.542253120449665, 71.35548046728823); (26.300346373716106, 53.40502365532766);
   (30.05467462322393, 41.78054273431498); (33.82007722367664, 33.1849696825539);
   (37.6188944785438, 26.219971064184996); (41.48097615682201, 21.84238246440211);
   (45.443687172993215, 18.88391803873515); (49.55191186952844, 17.81137621351253);
   (53.85805736281627, 16.654949662512383); (58.42205600935188, 14.234065864687464);
   (63.31136688553662, 10.222039436761069); (68.60097614179438, 5.971059086995101);
   (74.37339614738148, 2.8085175111507112); (80.7186634582328, 0.6778900972815473)].
(** retina.py:222-354 *)
Definition curcio (mi : nat) : list (R * R) :=
  match mi with 0%nat => curcio_temporal | 1%nat => curcio_superior | 2%nat => curcio_nasal | _ => curcio_inferior end.
(** retina.py:105-132 [rgc_density_on_meridian] *)
Definition rgc_density_on_meridian (deg : R) (mi : nat) : R := Rmax (np_interp deg (curcio mi)) 1.

(** retina.py:135-161 [rgcf_density_xy]: both meridians are selected by the sign of x (lines 153-154) *)
Definition rgcf_density_xy (func : R -> nat -> R) (xy : R * R) : R :=
  let r := sqrt (square (fst xy) + square (snd xy)) in
  let xmi := if Rgtb (fst xy) 0 then 0%nat else 2%nat in
  let ymi := if Rgtb (fst xy) 0 then 1%nat else 3%nat in
  let dx := func r xmi in
  let dy := func r ymi in
  if Reqb r 0 then dy
  else square r / (square (fst xy) / dx + square (snd xy) / dy).
(** retina.py:164-185 [binocular_density], 188-220 [rgcf_density], [rgc_density] *)
Definition binocular_density (func : R -> nat -> R) (xy : R * R) : R :=
  let x := 90 * fst xy in
  let y := 90 * snd xy in
  (rgcf_density_xy func (x, y) + rgcf_density_xy func (- x, y)) / 2.
(** retina.py:188-202 *)
Definition rgcf_density (xy : R * R) : R := binocular_density rgcf_density_on_meridian xy.
(** retina.py:205-219 *)
Definition rgc_density (xy : R * R) : R := binocular_density rgc_density_on_meridian xy.
