#!/usr/bin/env python3
"""writes /verif/properties.jsonl (kept as a script so the list stays valid JSON)"""
import json, os
P = []
def p(id, title, statement, quantifier, why, *anchors):
    P.append(dict(id=id, title=title, statement=statement, quantifier=quantifier,
                  why_tests_cant=why, anchors=list(anchors)))

T = "raytools/translate.py"; IO = "raytools/io.py"; U = "raytools/utility.py"
IT = "raytools/imagetools.py"; M = "raytools/mapper/mapper.py"; AM = "raytools/mapper/angularmixin.py"
VM = "raytools/mapper/viewmapper.py"; SV = "raytools/mapper/solidviewmapper.py"
PV = "raytools/mapper/perspectiveviewmapper.py"; BM = "raytools/evaluate/basemetricset.py"
MS = "raytools/evaluate/metricset.py"; CM = "raytools/evaluate/colormetricset.py"
PI = "raytools/evaluate/positionindex.py"; RT = "raytools/evaluate/retina.py"; GS = "raytools/evaluate/hvsgsm.py"
CLI = "raytools/cli.py"

p("C01", "uv2xyz returns unit direction vectors",
  "translate.uv2xyz(uv, axes, xsign) returns a vector of euclidean length exactly one for every uv in [0,2]x[0,1], for xsign in {1,-1} and any permutation of axes; u <= 1 gives a vector with non-negative component along axes[2] and u > 1 a non-positive one.",
  "every real uv in the double square, both signs, all six axis orders", "the domain is a continuum with three branch boundaries (|a|=|b|, b=0, u=1); a grid never covers it",
  f"{T}:uv2xyz")
p("C02", "uv -> xyz -> uv round trip",
  "translate.xyz2uv(translate.uv2xyz(uv, xsign=-1), flipu=True) == uv for every uv strictly inside either unit square, and the same with xsign=1, flipu=False for every uv strictly inside the upper hemisphere square.",
  "every uv interior to the squares", "continuum of inputs; the four octant branches of the inverse must agree with the two branches of the forward map everywhere",
  f"{T}:uv2xyz", f"{T}:xyz2uv")
p("C03", "xyz -> uv -> xyz round trip",
  "translate.uv2xyz(translate.xyz2uv(xyz, flipu=True), xsign=-1) == xyz for every unit vector; with the defaults flipu=False, xsign=1 it holds for every unit vector with z >= 0.",
  "every unit vector in 3-space", "continuum of inputs, including the seams between octants and the equator; the unit test samples 4000 points",
  f"{T}:uv2xyz", f"{T}:xyz2uv")
p("C04", "range of xyz2uv",
  "translate.xyz2uv of a unit vector lies in [0,1]x[0,1] when its z component is >= 0 and in [1,2]x[0,1] when it is negative, for both values of flipu.",
  "every unit vector", "continuum of inputs", f"{T}:xyz2uv")
p("C05", "uv2xy is the concentric disk map",
  "translate.uv2xy(uv) lies in the unit disk at radius max(|2u-1|,|2v-1|) for u <= 1, and scaling it by sqrt(2-r^2) and appending 1-r^2 gives exactly translate.uv2xyz(uv).",
  "every uv in the unit square", "continuum of inputs", f"{T}:uv2xy", f"{T}:uv2xyz")
p("C06", "digitised uv indices are always valid",
  "translate.uv2ij(uv, side, aspect) returns i in [0, side) (or [0, 2*side) when aspect is 2) and j in [0, side), and translate.uv2bin(uv, side) is in [0, 2*side^2), for every real uv and side >= 1.",
  "every real uv, every side >= 1", "unbounded side and continuum of uv", f"{T}:uv2ij", f"{T}:uv2bin")
p("C07", "bin -> uv -> bin round trip",
  "translate.uv2bin(translate.bin2uv(b, side, offset), side) == b for every side >= 1, 0 <= b < 2*side^2 and 0 <= offset < 1; distinct bins give distinct uv.",
  "every side, every bin, every offset in [0,1)", "unbounded side; test checks side 10 only", f"{T}:uv2bin", f"{T}:bin2uv")
p("C08", "bins partition the uv square",
  "for uv in [0,2)x[0,1), translate.uv2bin(uv, side) == b exactly when uv lies in the half open cell of width 1/side whose lower corner is translate.bin2uv(b, side, 0); on the closed upper edge v == 1 the index wraps to row 0.",
  "every uv in the half open double square, every side", "continuum of points including the cell edges", f"{T}:uv2ij", f"{T}:uv2bin", f"{T}:bin2uv")
p("C09", "sky patch direction -> bin round trip",
  "translate.xyz2skybin(translate.skybin2xyz(b, side), side) == b for every upper hemisphere patch 0 <= b < side^2; for b in [side^2, 2 side^2) the direction is (0,0,-1) and its bin is >= side^2.",
  "every side >= 1 and every patch", "unbounded side; trigonometric round trip must be exact at every patch centre", f"{T}:skybin2xyz", f"{T}:xyz2skybin")
p("C10", "spherical angle conversions are inverse",
  "translate.tp2xyz returns unit vectors; translate.xyz2tp(translate.tp2xyz(tp)) == tp for theta in (0,pi), phi in [0,2pi); translate.tp2xyz(translate.xyz2tp(xyz)) == xyz for every unit vector.",
  "every angle pair / every unit vector", "continuum, including both poles", f"{T}:tp2xyz", f"{T}:xyz2tp", f"{T}:tpnorm")
p("C11", "altitude/azimuth conversions are inverse",
  "translate.xyz2aa(translate.aa2xyz(aa)) == aa for altitude in (-90,90), azimuth in the documented range, and translate.aa2xyz(translate.xyz2aa(xyz)) == xyz for every unit vector.",
  "every altitude/azimuth pair, every unit vector", "continuum, including the poles and the azimuth seam", f"{T}:aa2xyz", f"{T}:xyz2aa")
p("C12", "chord/angle conversions are inverse",
  "translate.chord2theta(translate.theta2chord(t)) == t for t in [0,pi], translate.theta2chord(translate.chord2theta(c)) == c for c in [0,2], and theta2chord of the angle between two unit vectors is their euclidean distance.",
  "every angle, every chord, every pair of unit vectors", "continuum", f"{T}:chord2theta", f"{T}:theta2chord")
p("C13", "angle between directions",
  "translate.radians(a,b) is in [0,pi], symmetric, zero exactly when unit a == b, pi exactly when a == -b, and translate.degrees is that angle times 180/pi.",
  "every pair of unit vectors", "continuum", f"{T}:ctheta", f"{T}:radians", f"{T}:degrees")
p("C14", "rmtx_yp rotates its argument to z, reversibly",
  "for every non-zero v, translate.rmtx_yp(v) returns two proper rotation matrices; applying them maps v/|v| to (0,0,1), and the swapped transposes undo them. z gives identities. The exact mapping holds for all v outside two polar caps; inside a cap the residual is bounded.",
  "every non-zero vector", "continuum; the failure is confined to a cap of 3e-5 radians that no sampled test hits", f"{T}:rmtx_yp")
p("C15", "rotate_elem is a rotation about the chosen axis",
  "translate.rotate_elem(v, t, axis) preserves lengths and dot products, fixes the chosen axis, composes additively in t, is undone by -t, and degrees=True equals degrees=False at t*pi/180, for each axis in {0,1,2}.",
  "every vector, every angle, every axis", "continuum", f"{T}:rmtx_elem", f"{T}:rotate_elem")
p("C16", "reflect is an isometric involution",
  "for unit normals translate.reflect(ray, normal) preserves ray length, is its own inverse, fixes vectors perpendicular to the normal and negates the normal; its validity mask is true for unit rays.",
  "every ray and every unit normal, any number of each", "continuum", f"{T}:reflect")
p("C17", "normalisation",
  "translate.norm of non-zero rows and translate.norm1 of a non-zero vector have length one and the same direction; norm1 of the zero vector is the zero vector; both are idempotent.",
  "every vector", "continuum", f"{T}:norm", f"{T}:norm1")
p("C18", "angular fisheye projection",
  "translate.xyz2xy maps a direction to a point whose distance from the origin is the angle to axes[2] divided by 90 degrees, in the azimuth direction of the vector; flip mirrors x.",
  "every non-zero vector", "continuum", f"{T}:xyz2xy")
p("C19", "view rotation is invertible and rigid",
  "for a ViewMapper, view2world(world2view(x)) == x == world2view(view2world(x)), lengths and dot products are preserved, and the view direction is mapped to (0,0,1).",
  "every view direction, every vector", "continuum of view directions including the poles", f"{M}:Mapper.view2world", f"{M}:Mapper.world2view", f"{VM}:ViewMapper.dxyz")
p("C20", "ViewMapper uv <-> world round trip",
  "ViewMapper(d, viewangle).uv2xyz returns unit vectors and xyz2uv(uv2xyz(uv)) == uv for uv strictly inside the view square; uv2xyz(xyz2uv(v)) == v for every unit vector; (0.5,0.5) is the view direction for viewangle <= 180.",
  "every view direction, every view angle in (0,180] and 360, every uv", "continuum in three parameters", f"{AM}:AngularMixin.xyz2uv", f"{AM}:AngularMixin.uv2xyz")
p("C21", "ViewMapper pixel <-> ray round trip",
  "for viewangle <= 180, pixel2ray returns unit vectors, ray2pixel(pixel2ray(p)) == p for real pixel coordinates in the frame, hence ray2pixel(pixelrays(res)) returns each pixel's own integer index for every res.",
  "every view direction and angle, every resolution, every pixel", "unbounded resolution and continuum of views; test uses res=2", f"{AM}:AngularMixin.vxy2xyz", f"{AM}:AngularMixin.xyz2vxy", f"{M}:Mapper.ray2pixel", f"{M}:Mapper.pixel2ray")
p("C22", "field of view test",
  "ViewMapper(viewangle).in_view(v) is true exactly when v is within viewangle/2 of the view direction; for 180 degrees this is the open front hemisphere.",
  "every direction, every view angle", "continuum; the deviation depends on the view angle", f"{AM}:AngularMixin.in_view", f"{VM}:ViewMapper.aspect")
p("C23", "360 degree views cover the sphere with two disjoint halves",
  "a 360 degree ViewMapper maps every unit direction strictly in front of the view plane to image x in (0,1) and every other direction to x in [1,2], and its pixelrays are the front image followed by the image of the opposite view.",
  "every direction, every view direction", "continuum", f"{AM}:AngularMixin.xyz2vxy", f"{AM}:AngularMixin.pixelrays", f"{VM}:ViewMapper.dxyz")
p("C24", "equisolid projection round trip",
  "SolidViewMapper.xyz2vxy(vxy2xyz(p)) == p up to the 1e-9 regularisation of the radius, for all p within the view circle.",
  "every view direction, every image point in the circle", "continuum; needs a uniform error bound", f"{SV}:SolidViewMapper.xyz2vxy", f"{SV}:SolidViewMapper.vxy2xyz")
p("C25", "PerspectiveViewMapper is a perspective projection",
  "the image radius of a ray at angle t from the view direction of PerspectiveViewMapper is proportional to tan(t), and the vertical and horizontal view angles are both honoured.",
  "every ray, every view", "continuum", f"{PV}:PerspectiveViewMapper")
p("C26", "Mapper uv <-> world round trip",
  "Mapper.xyz2uv(uv2xyz(uv)) == uv for every scale factor with non-zero entries and every bounding box.",
  "every mapper, every uv", "continuum", f"{M}:Mapper.xyz2uv", f"{M}:Mapper.uv2xyz")
p("C27", "grid index <-> uv round trip",
  "uv2idx(idx2uv(i, shape), shape) == i for every shape and 0 <= i < size, with or without jitter, for every jitterrate in [0,1).",
  "every shape, every index, every random draw", "quantifies over every value the random generator can return and over all shapes", f"{M}:Mapper.idx2uv", f"{M}:Mapper.uv2idx", f"{VM}:ViewMapper.idx2uv")
p("C28", "Mapper pixel <-> ray round trip",
  "Mapper.ray2pixel(pixel2ray(p, res), res) == p for every pixel coordinate.",
  "every pixel of every mapper", "continuum", f"{M}:Mapper.xyz2vxy", f"{M}:Mapper.vxy2xyz")
p("C29", "pixel jitter",
  "Mapper.pixels(res, jitter) returns for every pixel a point inside that pixel, for every res and every 0 <= jitter <= 1.",
  "every resolution, jitter and random draw", "unbounded resolutions and all random draws", f"{M}:Mapper.pixels")
p("C30", "drawing vectors touches only image pixels",
  "add_vecs_to_img writes only at the pixels of the given vectors that fall inside the image, never wraps a negative index, and leaves every other pixel unchanged.",
  "every image size, every list of vectors", "negative index wrap-around only shows for specific directions", f"{M}:Mapper.add_vecs_to_img", f"{AM}:AngularMixin.add_vecs_to_img")
p("C31", "image reprojection never reads out of bounds",
  "array_ang2uv and array_uv2ang index the source image only with indices in range for every resolution, and give every output pixel the value of the source pixel containing its direction.",
  "every resolution, every output pixel", "unbounded resolution", f"{IT}:array_ang2uv", f"{IT}:array_uv2ang")
p("C32", "process cap state machine",
  "after any sequence of set_nproc/unset_nproc calls get_nproc() returns the argument of the last set_nproc(n) with n >= 1 not followed by a reset, otherwise the cpu count; set_nproc(None) and rejected calls change nothing; get_nproc(n) returns n for n not None; a cap read from the environment is the number written there (blanks around it, a sign, single underscores between digits allowed), and any other text is ignored.",
  "every history of calls", "quantifies over all call sequences", f"{IO}:get_nproc", f"{IO}:set_nproc", f"{IO}:unset_nproc")
p("C33", "pool_call equals the sequential loop",
  "utility.pool_call returns the list of results in argument order, equal to the sequential loop, for every completion order of the workers; if calls raise, the exception of the first failing argument is raised, as in the sequential loop; every schedule that keeps making steps finishes.",
  "every function, argument list and worker schedule", "quantifies over every interleaving", f"{U}:pool_call")
p("C34", "pool_call honours cap",
  "no more than cap calls run at the same time under pool_call(cap=n), for process and thread workers; the strings thread, t and threads in any capitals select threads, False and the empty string no pool, anything else processes.",
  "every schedule", "quantifies over every interleaving", f"{U}:pool_call", f"{U}:TStqdm", f"{IO}:get_nproc")
p("C35", "array <-> bytes round trip",
  "bytes2np(np2bytes(a), a.shape) == a for every array of single precision values (bit exact, NaN payloads included) and every shape, also with one dimension given as -1; the buffer has 4 bytes per element, little endian, in C order; wrong lengths raise.",
  "every array shape and content", "unbounded size, 2^32 values per element", f"{IO}:np2bytes", f"{IO}:bytes2np", f"{IO}:np2bytefile", f"{IO}:bytefile2np")
p("C36", "hdr image orientation round trip",
  "hdr2array(array2hdr(a)) and hdr2carray(carray2hdr(a)) return every pixel at its own position (up to the pixel encoding), for every width and height.",
  "every image size and content", "unbounded sizes; a square test image hides a swapped axis", f"{IO}:array2hdr", f"{IO}:carray2hdr", f"{IO}:hdr2array", f"{IO}:hdr2carray")
p("C37", "radiance and luminance of rgb",
  "rgb2lum(rgb) == 179*rgb2rad(rgb) for every weight vector; rgb2rad is linear and lies between the smallest and largest channel for the default weights.",
  "every colour, every weight vector", "continuum", f"{IO}:rgb2rad", f"{IO}:rgb2lum")
p("C38", "rgbe decoding",
  "rgbe2lum gives non-negative luminance that is zero exactly when r,g,b are all zero, doubles when the exponent is incremented and is strictly monotone in each channel, for all byte values given as unsigned integers.",
  "all 2^32 byte quadruples", "finite but huge; the failure only shows for unsigned 8 bit arrays with small exponents", f"{IO}:rgbe2lum")
p("C39", "is_hdr recognises Radiance files",
  "is_hdr(f) is true exactly for files that start with #?RADIANCE.",
  "every file content", "all file contents", f"{IO}:is_hdr")
p("C40", "load_txt error contract",
  "load_txt raises TypeError for non path arguments, FileNotFoundError for missing files, ValueError for unloadable files, and otherwise returns exactly what the loader returns.",
  "every argument and file system state", "decision table over an arbitrary file system", f"{IO}:load_txt")
p("C41", "cleaned headers keep exactly the last view",
  "clean_header(h) contains no pvalue or FORMAT entry, at most one VIEW entry, which is the last view of the input and the last line.",
  "every header text", "all header texts", f"{IO}:CleanHeader", f"{IO}:clean_header")
p("C42", "cleaned headers keep file nesting and lose duplicates",
  "in clean_header(h) file blocks stay nested under the file they were nested under in h and repeated lines are stored once; no input makes it raise.",
  "every header text", "all header texts", f"{IO}:CleanHeader")
p("C43", "header_items returns the value of a key",
  "header_items(h, items) has one entry per requested key, the value of the last line with that key ignoring case, or the empty string.",
  "every header and key list", "all header texts", f"{IO}:header_items")
p("C44", "view header round trip",
  "an hdr image written with ViewMapper.header() is read back by hdr2vm as a ViewMapper with the same direction and the same view angle, including 360 degree views.",
  "every view direction and angle, every header containing it", "continuum of views and arbitrary surrounding header lines", f"{AM}:AngularMixin.header", f"{IT}:hdr2vm")
p("C45", "illuminance is linear and additive over rays",
  "MetricSet illum, srcillum, pwsl2 (fixed threshold) and ColorMetricSet irradiance of a union of ray sets is the sum over the parts (what safe2sum promises), illum is linear in luminance and in scale, and non-negative for views up to 180 degrees.",
  "every list of rays", "all list lengths and real values", f"{BM}:BaseMetricSet.illum", f"{MS}:MetricSet.safe2sum", f"{BM}:BaseMetricSet.check_safe2sum")
p("C46", "contrast ratio bounds",
  "gcr >= 1 and loggcr >= 0 when omega are non-negative and the view area is their sum, with equality for a uniform field; gcr does not change when luminances or scale are multiplied by a positive constant; the same for the position weighted version.",
  "every list of rays", "all list lengths and real values (Cauchy-Schwarz)", f"{BM}:BaseMetricSet.gcr", f"{BM}:BaseMetricSet.loggcr", f"{BM}:BaseMetricSet.pwgcr")
p("C47", "dgp bounds",
  "0 < dgp <= 1 whenever illum > 0, dgp >= 0.16 without the low light correction, and the low light correction never increases dgp.",
  "every list of rays", "all real valued inputs", f"{MS}:MetricSet.dgp")
p("C48", "ugr and ugp bounds",
  "ugr >= 0, 0 < ugp < 1, ugp strictly increases with ugr, and ugr is zero when no ray is a source.",
  "every list of rays", "all real valued inputs", f"{MS}:MetricSet.ugr", f"{MS}:MetricSet.ugp")
p("C49", "sources and background partition the view",
  "sources and background split the rays in order without loss: srcarea plus background area is the total omega, srcillum plus background illuminance is illum, a ray is a source exactly when its scaled luminance exceeds the threshold.",
  "every list of rays and threshold", "all list lengths", f"{MS}:MetricSet.sources", f"{MS}:MetricSet.background", f"{MS}:MetricSet.threshold")
p("C50", "position index bounds",
  "PositionIndex().positions lies in [1,16] for every direction, is 1 at the view direction and 16 behind the view; the Kim index is positive.",
  "every direction and view", "continuum including the singular directions where the formula divides by zero", f"{PI}:PositionIndex.positions")
p("C51", "cached metrics do not depend on access history",
  "reading a metric of a MetricSet returns the value its definition gives for that object's current data, after any interleaving of reads on any number of metric set objects and of assignments to their public attributes.",
  "every history of attribute reads and assignments over any number of objects", "all histories", f"{BM}:BaseMetricSet", f"{MS}:MetricSet")
p("C52", "omega correction terminates and normalises",
  "with omega_as_view_area=False and more than 100 rays, construction terminates and yields omegas whose sum is the view area by scaling only edge rays by one common non-negative factor, unless no ray overlaps the edge; with True the view area is the sum of omega.",
  "every ray set", "termination over all inputs", f"{BM}:BaseMetricSet.omega")
p("C53", "construction of a metric set leaves its arguments alone and clips each stray ray to its own overlap",
  "BaseMetricSet(vec, omega, lum, vm) does not modify the caller's arrays, and the solid angle used for a bright ray overlapping the view edge is the overlap of that ray with the view.",
  "every ray set", "only shows with two or more bright stray rays", f"{BM}:BaseMetricSet.__init__")
p("C54", "metric name checking and order of results",
  "check_metrics returns exactly the known names in order; with raise_error it raises iff an unknown name is present; calling the object returns one value per requested metric in the requested order.",
  "every list of names", "all lists", f"{BM}:BaseMetricSet.check_metrics", f"{BM}:BaseMetricSet.__call__")
p("C55", "colour and luminance metrics agree",
  "for a ColorMetricSet, illum equals the vlambda weighted sum of irradiance, and its rgb rows stay aligned with the masked rays.",
  "every ray set, every number of channels", "all list lengths", f"{CM}:ColorMetricSet")
p("C56", "normalize_peak conserves energy",
  "the total of omega*luminance over all rays is the same before and after normalize_peak, for every option combination that returns the full set.",
  "every ray set and parameter choice, every tie order of the sort", "all inputs; the three branches and the blur correction must all conserve", f"{IT}:find_peak", f"{IT}:normalize_peak")
p("C57", "normalize_peak touches only bright rays near the peak",
  "every removed ray is above the threshold and within the peak radius of the brightest ray, all other rays are returned unchanged and in order, and with nothing above the threshold the input is returned unchanged.",
  "every ray set", "all inputs", f"{IT}:find_peak", f"{IT}:normalize_peak")
p("C58", "secondary peak grouping terminates and conserves",
  "find_peak(findsecondary=True) terminates for unit vectors and a positive radius; every group's area times mean luminance is the energy of its members and groups are disjoint.",
  "every ray set", "termination over all inputs", f"{IT}:gather_strays")
p("C59", "imgmetric channel selection",
  "imgmetric computes colour metrics with the given weights, else the header's LuminanceRGB, else the Radiance default weights.",
  "every header and metric list", "decision logic over all headers", f"{IT}:imgmetric", f"{CLI}:metric")
p("C60", "weighted quantile is a value of the data range",
  "weighted_quantile returns for q in [0,1] a value between the smallest and largest included datum, the smallest for q=0, the largest for q=1, and agrees with the linear interpolation quantile when the weights are equal.",
  "every data set, weights, q and tie order", "all inputs", f"{T}:weighted_quantile", f"{T}:weighted_median")
p("C61", "weighted quantile is monotone in q",
  "q1 <= q2 implies weighted_quantile(q1) <= weighted_quantile(q2).",
  "every data set, weights and pair of q", "fails only in an interval of width 1e-5", f"{T}:weighted_quantile")
p("C62", "non uniform gaussian filter",
  "with amethod='mean' every output is between the smallest and largest y and constants are reproduced; output k belongs to input x[k] also when x is not sorted.",
  "every data set", "all inputs and permutations", f"{T}:non_uniform_gaussian_filter")
p("C63", "cull_vectors keeps a maximal separated subset",
  "the kept vectors are pairwise farther apart than tol, every culled vector is within tol of a kept vector of smaller index, and the first vector is always kept.",
  "every list of vectors and tolerance", "all inputs; chains of close points", f"{T}:cull_vectors")
p("C64", "resample scales by whole blocks",
  "down sampling by an integer factor returns block averages, up sampling without filter repeats each sample, and down sampling undoes up sampling, for every size and factor.",
  "every array and factor", "unbounded sizes", f"{T}:resample")
p("C65", "simple_take",
  "simple_take returns along each given axis exactly the selected indices in order and keeps the number of dimensions.",
  "every array and index specification", "all shapes", f"{T}:simple_take")
p("C66", "eye point spread and sun blur",
  "hpsf and inv_hpsf are inverse on (0,1] and non-negative radii, hpsf decreases, and blur_sun returns a factor >= 1 that is 1 exactly when the luminance does not exceed lmin, so area*factor and luminance/factor conserve energy.",
  "every radius, luminance and width", "continuum", f"{RT}:hpsf", f"{RT}:inv_hpsf", f"{RT}:blur_sun")
p("C67", "retinal density model",
  "densities are positive, the binocular density is symmetric left/right, and each quadrant uses its own pair of meridians.",
  "every visual field position", "continuum", f"{RT}:rgcf_density_xy", f"{RT}:binocular_density")
p("C68", "point spread coefficients are normalised",
  "GSS.psf_coef returns four weights that are positive and sum to one for every age, pigmentation in (0,1) and pupil diameter.",
  "every age, pigmentation, pupil", "continuum", f"{GS}:GSS.psf_coef")
p("C69", "cone response",
  "GSS.cone_response is in [0,1), increases with irradiance, decreases with adaptation level, and is 1/2 at the half saturation value.",
  "every irradiance and adaptation", "continuum", f"{GS}:GSS.cone_response")
p("C70", "glare score bounds",
  "normalized_field_response is in [0,1) and zero outside the view, and the raw GSS is non-negative, monotone in every response and at most (2*sum omega)^(1/4).",
  "every response image", "all image sizes", f"{GS}:GSS.normalized_field_response", f"{GS}:GSS.gss")
p("C71", "receptive field bins cover every pixel once",
  "field_response assigns every pixel with eccentricity in [0,1) exactly one filter width.",
  "every eccentricity", "continuum with 31 boundaries", f"{GS}:GSS.field_response", f"{GS}:GSS.sigma_c")
p("C72", "GSS derived arrays match the current view and image",
  "after any history of image and view assignments the solid angles, mask and eccentricities used by compute() are those of the current view and resolution.",
  "every history of assignments", "all histories", f"{GS}:GSS.lum", f"{GS}:GSS.vm")
p("C73", "eccentricity scaling",
  "sigma_c is within [emin, emax] for every direction and equals emin at the view direction.",
  "every direction", "continuum", f"{GS}:GSS.sigma_c")
p("C74", "local adaptation",
  "local_eye_adaptation is a weighted geometric mean of local and global irradiance: positive, monotone in both and equal to the common value when they agree.",
  "every irradiance", "continuum; the zero irradiance branch", f"{GS}:GSS.local_eye_adaptation")
p("C75", "metric table rows match images",
  "the metric command prints one row per image in the order given, with one column per printed metric name, for every metric list including gss and gssnb.",
  "every image list and metric list", "all lists", f"{CLI}:metric")
exec(open(os.path.join(os.path.dirname(__file__), "more_properties.py")).read()) if os.path.exists(os.path.join(os.path.dirname(__file__), "more_properties.py")) else None
with open(os.path.join(os.path.dirname(__file__), "..", "properties.jsonl"), "w") as f:
    for r in P:
        f.write(json.dumps(r) + "\n")
print(len(P))
