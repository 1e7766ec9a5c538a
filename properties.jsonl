{"id": "C01", "title": "uv2xyz returns unit direction vectors", "statement": "translate.uv2xyz(uv, axes, xsign) returns a vector of euclidean length exactly one for every uv in [0,2]x[0,1], for xsign in {1,-1} and any permutation of axes; u <= 1 gives a vector with non-negative component along axes[2] and u > 1 a non-positive one.", "quantifier": "every real uv in the double square, both signs, all six axis orders", "why_tests_cant": "the domain is a continuum with three branch boundaries (|a|=|b|, b=0, u=1); a grid never covers it", "anchors": ["raytools/translate.py:uv2xyz"]}
{"id": "C02", "title": "uv -> xyz -> uv round trip", "statement": "translate.xyz2uv(translate.uv2xyz(uv, xsign=-1), flipu=True) == uv for every uv strictly inside either unit square, and the same with xsign=1, flipu=False for every uv strictly inside the upper hemisphere square.", "quantifier": "every uv interior to the squares", "why_tests_cant": "continuum of inputs; the four octant branches of the inverse must agree with the two branches of the forward map everywhere", "anchors": ["raytools/translate.py:uv2xyz", "raytools/translate.py:xyz2uv"]}
{"id": "C03", "title": "xyz -> uv -> xyz round trip", "statement": "translate.uv2xyz(translate.xyz2uv(xyz, flipu=True), xsign=-1) == xyz for every unit vector; with the defaults flipu=False, xsign=1 it holds for every unit vector with z >= 0.", "quantifier": "every unit vector in 3-space", "why_tests_cant": "continuum of inputs, including the seams between octants and the equator; the unit test samples 4000 points", "anchors": ["raytools/translate.py:uv2xyz", "raytools/translate.py:xyz2uv"]}
{"id": "C04", "title": "range of xyz2uv", "statement": "translate.xyz2uv of a unit vector lies in [0,1]x[0,1] when its z component is >= 0 and in [1,2]x[0,1] when it is negative, for both values of flipu.", "quantifier": "every unit vector", "why_tests_cant": "continuum of inputs", "anchors": ["raytools/translate.py:xyz2uv"]}
{"id": "C05", "title": "uv2xy is the concentric disk map", "statement": "translate.uv2xy(uv) lies in the unit disk at radius max(|2u-1|,|2v-1|) for u <= 1, and scaling it by sqrt(2-r^2) and appending 1-r^2 gives exactly translate.uv2xyz(uv).", "quantifier": "every uv in the unit square", "why_tests_cant": "continuum of inputs", "anchors": ["raytools/translate.py:uv2xy", "raytools/translate.py:uv2xyz"]}
{"id": "C06", "title": "digitised uv indices are always valid", "statement": "translate.uv2ij(uv, side, aspect) returns i in [0, side) (or [0, 2*side) when aspect is 2) and j in [0, side), and translate.uv2bin(uv, side) is in [0, 2*side^2), for every real uv and side >= 1.", "quantifier": "every real uv, every side >= 1", "why_tests_cant": "unbounded side and continuum of uv", "anchors": ["raytools/translate.py:uv2ij", "raytools/translate.py:uv2bin"]}
{"id": "C07", "title": "bin -> uv -> bin round trip", "statement": "translate.uv2bin(translate.bin2uv(b, side, offset), side) == b for every side >= 1, 0 <= b < 2*side^2 and 0 <= offset < 1; distinct bins give distinct uv.", "quantifier": "every side, every bin, every offset in [0,1)", "why_tests_cant": "unbounded side; test checks side 10 only", "anchors": ["raytools/translate.py:uv2bin", "raytools/translate.py:bin2uv"]}
{"id": "C08", "title": "bins partition the uv square", "statement": "for uv in [0,2)x[0,1), translate.uv2bin(uv, side) == b exactly when uv lies in the half open cell of width 1/side whose lower corner is translate.bin2uv(b, side, 0); on the closed upper edge v == 1 the index wraps to row 0.", "quantifier": "every uv in the half open double square, every side", "why_tests_cant": "continuum of points including the cell edges", "anchors": ["raytools/translate.py:uv2ij", "raytools/translate.py:uv2bin", "raytools/translate.py:bin2uv"]}
{"id": "C09", "title": "sky patch direction -> bin round trip", "statement": "translate.xyz2skybin(translate.skybin2xyz(b, side), side) == b for every upper hemisphere patch 0 <= b < side^2; for b in [side^2, 2 side^2) the direction is (0,0,-1) and its bin is >= side^2.", "quantifier": "every side >= 1 and every patch", "why_tests_cant": "unbounded side; trigonometric round trip must be exact at every patch centre", "anchors": ["raytools/translate.py:skybin2xyz", "raytools/translate.py:xyz2skybin"]}
{"id": "C10", "title": "spherical angle conversions are inverse", "statement": "translate.tp2xyz returns unit vectors; translate.xyz2tp(translate.tp2xyz(tp)) == tp for theta in (0,pi), phi in [0,2pi); translate.tp2xyz(translate.xyz2tp(xyz)) == xyz for every unit vector.", "quantifier": "every angle pair / every unit vector", "why_tests_cant": "continuum, including both poles", "anchors": ["raytools/translate.py:tp2xyz", "raytools/translate.py:xyz2tp", "raytools/translate.py:tpnorm"]}
{"id": "C11", "title": "altitude/azimuth conversions are inverse", "statement": "translate.xyz2aa(translate.aa2xyz(aa)) == aa for altitude in (-90,90), azimuth in the documented range, and translate.aa2xyz(translate.xyz2aa(xyz)) == xyz for every unit vector.", "quantifier": "every altitude/azimuth pair, every unit vector", "why_tests_cant": "continuum, including the poles and the azimuth seam", "anchors": ["raytools/translate.py:aa2xyz", "raytools/translate.py:xyz2aa"]}
{"id": "C12", "title": "chord/angle conversions are inverse", "statement": "translate.chord2theta(translate.theta2chord(t)) == t for t in [0,pi], translate.theta2chord(translate.chord2theta(c)) == c for c in [0,2], and theta2chord of the angle between two unit vectors is their euclidean distance.", "quantifier": "every angle, every chord, every pair of unit vectors", "why_tests_cant": "continuum", "anchors": ["raytools/translate.py:chord2theta", "raytools/translate.py:theta2chord"]}
{"id": "C13", "title": "angle between directions", "statement": "translate.radians(a,b) is in [0,pi], symmetric, zero exactly when unit a == b, pi exactly when a == -b, and translate.degrees is that angle times 180/pi.", "quantifier": "every pair of unit vectors", "why_tests_cant": "continuum", "anchors": ["raytools/translate.py:ctheta", "raytools/translate.py:radians", "raytools/translate.py:degrees"]}
{"id": "C14", "title": "rmtx_yp rotates its argument to z, reversibly", "statement": "for every non-zero v, translate.rmtx_yp(v) returns two proper rotation matrices; applying them maps v/|v| to (0,0,1), and the swapped transposes undo them. z gives identities. The exact mapping holds for all v outside two polar caps; inside a cap the residual is bounded.", "quantifier": "every non-zero vector", "why_tests_cant": "continuum; the failure is confined to a cap of 3e-5 radians that no sampled test hits", "anchors": ["raytools/translate.py:rmtx_yp"]}
{"id": "C15", "title": "rotate_elem is a rotation about the chosen axis", "statement": "translate.rotate_elem(v, t, axis) preserves lengths and dot products, fixes the chosen axis, composes additively in t, is undone by -t, and degrees=True equals degrees=False at t*pi/180, for each axis in {0,1,2}.", "quantifier": "every vector, every angle, every axis", "why_tests_cant": "continuum", "anchors": ["raytools/translate.py:rmtx_elem", "raytools/translate.py:rotate_elem"]}
{"id": "C16", "title": "reflect is an isometric involution", "statement": "for unit normals translate.reflect(ray, normal) preserves ray length, is its own inverse, fixes vectors perpendicular to the normal and negates the normal; its validity mask is true for unit rays.", "quantifier": "every ray and every unit normal, any number of each", "why_tests_cant": "continuum", "anchors": ["raytools/translate.py:reflect"]}
{"id": "C17", "title": "normalisation", "statement": "translate.norm of non-zero rows and translate.norm1 of a non-zero vector have length one and the same direction; norm1 of the zero vector is the zero vector; both are idempotent.", "quantifier": "every vector", "why_tests_cant": "continuum", "anchors": ["raytools/translate.py:norm", "raytools/translate.py:norm1"]}
{"id": "C18", "title": "angular fisheye projection", "statement": "translate.xyz2xy maps a direction to a point whose distance from the origin is the angle to axes[2] divided by 90 degrees, in the azimuth direction of the vector; flip mirrors x.", "quantifier": "every non-zero vector", "why_tests_cant": "continuum", "anchors": ["raytools/translate.py:xyz2xy"]}
{"id": "C19", "title": "view rotation is invertible and rigid", "statement": "for a ViewMapper, view2world(world2view(x)) == x == world2view(view2world(x)), lengths and dot products are preserved, and the view direction is mapped to (0,0,1).", "quantifier": "every view direction, every vector", "why_tests_cant": "continuum of view directions including the poles", "anchors": ["raytools/mapper/mapper.py:Mapper.view2world", "raytools/mapper/mapper.py:Mapper.world2view", "raytools/mapper/viewmapper.py:ViewMapper.dxyz"]}
{"id": "C20", "title": "ViewMapper uv <-> world round trip", "statement": "ViewMapper(d, viewangle).uv2xyz returns unit vectors and xyz2uv(uv2xyz(uv)) == uv for uv strictly inside the view square; uv2xyz(xyz2uv(v)) == v for every unit vector; (0.5,0.5) is the view direction for viewangle <= 180.", "quantifier": "every view direction, every view angle in (0,180] and 360, every uv", "why_tests_cant": "continuum in three parameters", "anchors": ["raytools/mapper/angularmixin.py:AngularMixin.xyz2uv", "raytools/mapper/angularmixin.py:AngularMixin.uv2xyz"]}
{"id": "C21", "title": "ViewMapper pixel <-> ray round trip", "statement": "for viewangle <= 180, pixel2ray returns unit vectors, ray2pixel(pixel2ray(p)) == p for real pixel coordinates in the frame, hence ray2pixel(pixelrays(res)) returns each pixel's own integer index for every res.", "quantifier": "every view direction and angle, every resolution, every pixel", "why_tests_cant": "unbounded resolution and continuum of views; test uses res=2", "anchors": ["raytools/mapper/angularmixin.py:AngularMixin.vxy2xyz", "raytools/mapper/angularmixin.py:AngularMixin.xyz2vxy", "raytools/mapper/mapper.py:Mapper.ray2pixel", "raytools/mapper/mapper.py:Mapper.pixel2ray"]}
{"id": "C22", "title": "field of view test", "statement": "ViewMapper(viewangle).in_view(v) is true exactly when v is within viewangle/2 of the view direction; for 180 degrees this is the open front hemisphere.", "quantifier": "every direction, every view angle", "why_tests_cant": "continuum; the deviation depends on the view angle", "anchors": ["raytools/mapper/angularmixin.py:AngularMixin.in_view", "raytools/mapper/viewmapper.py:ViewMapper.aspect"]}
{"id": "C23", "title": "360 degree views cover the sphere with two disjoint halves", "statement": "a 360 degree ViewMapper maps every unit direction strictly in front of the view plane to image x in (0,1) and every other direction to x in [1,2], and its pixelrays are the front image followed by the image of the opposite view.", "quantifier": "every direction, every view direction", "why_tests_cant": "continuum", "anchors": ["raytools/mapper/angularmixin.py:AngularMixin.xyz2vxy", "raytools/mapper/angularmixin.py:AngularMixin.pixelrays", "raytools/mapper/viewmapper.py:ViewMapper.dxyz"]}
{"id": "C24", "title": "equisolid projection round trip", "statement": "SolidViewMapper.xyz2vxy(vxy2xyz(p)) == p up to the 1e-9 regularisation of the radius, for all p within the view circle.", "quantifier": "every view direction, every image point in the circle", "why_tests_cant": "continuum; needs a uniform error bound", "anchors": ["raytools/mapper/solidviewmapper.py:SolidViewMapper.xyz2vxy", "raytools/mapper/solidviewmapper.py:SolidViewMapper.vxy2xyz"]}
{"id": "C25", "title": "PerspectiveViewMapper is a perspective projection", "statement": "the image radius of a ray at angle t from the view direction of PerspectiveViewMapper is proportional to tan(t), and the vertical and horizontal view angles are both honoured.", "quantifier": "every ray, every view", "why_tests_cant": "continuum", "anchors": ["raytools/mapper/perspectiveviewmapper.py:PerspectiveViewMapper"]}
{"id": "C26", "title": "Mapper uv <-> world round trip", "statement": "Mapper.xyz2uv(uv2xyz(uv)) == uv for every scale factor with non-zero entries and every bounding box.", "quantifier": "every mapper, every uv", "why_tests_cant": "continuum", "anchors": ["raytools/mapper/mapper.py:Mapper.xyz2uv", "raytools/mapper/mapper.py:Mapper.uv2xyz"]}
{"id": "C27", "title": "grid index <-> uv round trip", "statement": "uv2idx(idx2uv(i, shape), shape) == i for every shape and 0 <= i < size, with or without jitter, for every jitterrate in [0,1).", "quantifier": "every shape, every index, every random draw", "why_tests_cant": "quantifies over every value the random generator can return and over all shapes", "anchors": ["raytools/mapper/mapper.py:Mapper.idx2uv", "raytools/mapper/mapper.py:Mapper.uv2idx", "raytools/mapper/viewmapper.py:ViewMapper.idx2uv"]}
{"id": "C28", "title": "Mapper pixel <-> ray round trip", "statement": "Mapper.ray2pixel(pixel2ray(p, res), res) == p for every pixel coordinate.", "quantifier": "every pixel of every mapper", "why_tests_cant": "continuum", "anchors": ["raytools/mapper/mapper.py:Mapper.xyz2vxy", "raytools/mapper/mapper.py:Mapper.vxy2xyz"]}
{"id": "C29", "title": "pixel jitter", "statement": "Mapper.pixels(res, jitter) returns for every pixel a point inside that pixel, for every res and every 0 <= jitter <= 1.", "quantifier": "every resolution, jitter and random draw", "why_tests_cant": "unbounded resolutions and all random draws", "anchors": ["raytools/mapper/mapper.py:Mapper.pixels"]}
{"id": "C30", "title": "drawing vectors touches only image pixels", "statement": "add_vecs_to_img writes only at the pixels of the given vectors that fall inside the image, never wraps a negative index, and leaves every other pixel unchanged.", "quantifier": "every image size, every list of vectors", "why_tests_cant": "negative index wrap-around only shows for specific directions", "anchors": ["raytools/mapper/mapper.py:Mapper.add_vecs_to_img", "raytools/mapper/angularmixin.py:AngularMixin.add_vecs_to_img"]}
{"id": "C31", "title": "image reprojection never reads out of bounds", "statement": "array_ang2uv and array_uv2ang index the source image only with indices in range for every resolution, and give every output pixel the value of the source pixel containing its direction.", "quantifier": "every resolution, every output pixel", "why_tests_cant": "unbounded resolution", "anchors": ["raytools/imagetools.py:array_ang2uv", "raytools/imagetools.py:array_uv2ang"]}
{"id": "C32", "title": "process cap state machine", "statement": "after any sequence of set_nproc/unset_nproc calls get_nproc() returns the argument of the last set_nproc(n) with n >= 1 not followed by a reset, otherwise the cpu count; set_nproc(None) and rejected calls change nothing; get_nproc(n) returns n for n not None; a cap read from the environment is the number written there (blanks around it, a sign, single underscores between digits allowed), and any other text is ignored.", "quantifier": "every history of calls", "why_tests_cant": "quantifies over all call sequences", "anchors": ["raytools/io.py:get_nproc", "raytools/io.py:set_nproc", "raytools/io.py:unset_nproc"]}
{"id": "C33", "title": "pool_call equals the sequential loop", "statement": "utility.pool_call returns the list of results in argument order, equal to the sequential loop, for every completion order of the workers; if calls raise, the exception of the first failing argument is raised, as in the sequential loop; every schedule that keeps making steps finishes.", "quantifier": "every function, argument list and worker schedule", "why_tests_cant": "quantifies over every interleaving", "anchors": ["raytools/utility.py:pool_call"]}
{"id": "C34", "title": "pool_call honours cap", "statement": "no more than cap calls run at the same time under pool_call(cap=n), for process and thread workers; the strings thread, t and threads in any capitals select threads, False and the empty string no pool, anything else processes.", "quantifier": "every schedule", "why_tests_cant": "quantifies over every interleaving", "anchors": ["raytools/utility.py:pool_call", "raytools/utility.py:TStqdm", "raytools/io.py:get_nproc"]}
{"id": "C35", "title": "array <-> bytes round trip", "statement": "bytes2np(np2bytes(a), a.shape) == a for every array of single precision values (bit exact, NaN payloads included) and every shape, also with one dimension given as -1; the buffer has 4 bytes per element, little endian, in C order; wrong lengths raise.", "quantifier": "every array shape and content", "why_tests_cant": "unbounded size, 2^32 values per element", "anchors": ["raytools/io.py:np2bytes", "raytools/io.py:bytes2np", "raytools/io.py:np2bytefile", "raytools/io.py:bytefile2np"]}
{"id": "C36", "title": "hdr image orientation round trip", "statement": "hdr2array(array2hdr(a)) and hdr2carray(carray2hdr(a)) return every pixel at its own position (up to the pixel encoding), for every width and height.", "quantifier": "every image size and content", "why_tests_cant": "unbounded sizes; a square test image hides a swapped axis", "anchors": ["raytools/io.py:array2hdr", "raytools/io.py:carray2hdr", "raytools/io.py:hdr2array", "raytools/io.py:hdr2carray"]}
{"id": "C37", "title": "radiance and luminance of rgb", "statement": "rgb2lum(rgb) == 179*rgb2rad(rgb) for every weight vector; rgb2rad is linear and lies between the smallest and largest channel for the default weights.", "quantifier": "every colour, every weight vector", "why_tests_cant": "continuum", "anchors": ["raytools/io.py:rgb2rad", "raytools/io.py:rgb2lum"]}
{"id": "C38", "title": "rgbe decoding", "statement": "rgbe2lum gives non-negative luminance that is zero exactly when r,g,b are all zero, doubles when the exponent is incremented and is strictly monotone in each channel, for all byte values given as unsigned integers.", "quantifier": "all 2^32 byte quadruples", "why_tests_cant": "finite but huge; the failure only shows for unsigned 8 bit arrays with small exponents", "anchors": ["raytools/io.py:rgbe2lum"]}
{"id": "C39", "title": "is_hdr recognises Radiance files", "statement": "is_hdr(f) is true exactly for files that start with #?RADIANCE.", "quantifier": "every file content", "why_tests_cant": "all file contents", "anchors": ["raytools/io.py:is_hdr"]}
{"id": "C40", "title": "load_txt error contract", "statement": "load_txt raises TypeError for non path arguments, FileNotFoundError for missing files, ValueError for unloadable files, and otherwise returns exactly what the loader returns.", "quantifier": "every argument and file system state", "why_tests_cant": "decision table over an arbitrary file system", "anchors": ["raytools/io.py:load_txt"]}
{"id": "C41", "title": "cleaned headers keep exactly the last view", "statement": "clean_header(h) contains no pvalue or FORMAT entry, at most one VIEW entry, which is the last view of the input and the last line.", "quantifier": "every header text", "why_tests_cant": "all header texts", "anchors": ["raytools/io.py:CleanHeader", "raytools/io.py:clean_header"]}
{"id": "C42", "title": "cleaned headers keep file nesting and lose duplicates", "statement": "in clean_header(h) file blocks stay nested under the file they were nested under in h and repeated lines are stored once; no input makes it raise.", "quantifier": "every header text", "why_tests_cant": "all header texts", "anchors": ["raytools/io.py:CleanHeader"]}
{"id": "C43", "title": "header_items returns the value of a key", "statement": "header_items(h, items) has one entry per requested key, the value of the last line with that key ignoring case, or the empty string.", "quantifier": "every header and key list", "why_tests_cant": "all header texts", "anchors": ["raytools/io.py:header_items"]}
{"id": "C44", "title": "view header round trip", "statement": "an hdr image written with ViewMapper.header() is read back by hdr2vm as a ViewMapper with the same direction and the same view angle, including 360 degree views.", "quantifier": "every view direction and angle, every header containing it", "why_tests_cant": "continuum of views and arbitrary surrounding header lines", "anchors": ["raytools/mapper/angularmixin.py:AngularMixin.header", "raytools/imagetools.py:hdr2vm"]}
{"id": "C45", "title": "illuminance is linear and additive over rays", "statement": "MetricSet illum, srcillum, pwsl2 (fixed threshold) and ColorMetricSet irradiance of a union of ray sets is the sum over the parts (what safe2sum promises), illum is linear in luminance and in scale, and non-negative for views up to 180 degrees.", "quantifier": "every list of rays", "why_tests_cant": "all list lengths and real values", "anchors": ["raytools/evaluate/basemetricset.py:BaseMetricSet.illum", "raytools/evaluate/metricset.py:MetricSet.safe2sum", "raytools/evaluate/basemetricset.py:BaseMetricSet.check_safe2sum"]}
{"id": "C46", "title": "contrast ratio bounds", "statement": "gcr >= 1 and loggcr >= 0 when omega are non-negative and the view area is their sum, with equality for a uniform field; gcr does not change when luminances or scale are multiplied by a positive constant; the same for the position weighted version.", "quantifier": "every list of rays", "why_tests_cant": "all list lengths and real values (Cauchy-Schwarz)", "anchors": ["raytools/evaluate/basemetricset.py:BaseMetricSet.gcr", "raytools/evaluate/basemetricset.py:BaseMetricSet.loggcr", "raytools/evaluate/basemetricset.py:BaseMetricSet.pwgcr"]}
{"id": "C47", "title": "dgp bounds", "statement": "0 < dgp <= 1 whenever illum > 0, dgp >= 0.16 without the low light correction, and the low light correction never increases dgp.", "quantifier": "every list of rays", "why_tests_cant": "all real valued inputs", "anchors": ["raytools/evaluate/metricset.py:MetricSet.dgp"]}
{"id": "C48", "title": "ugr and ugp bounds", "statement": "ugr >= 0, 0 < ugp < 1, ugp strictly increases with ugr, and ugr is zero when no ray is a source.", "quantifier": "every list of rays", "why_tests_cant": "all real valued inputs", "anchors": ["raytools/evaluate/metricset.py:MetricSet.ugr", "raytools/evaluate/metricset.py:MetricSet.ugp"]}
{"id": "C49", "title": "sources and background partition the view", "statement": "sources and background split the rays in order without loss: srcarea plus background area is the total omega, srcillum plus background illuminance is illum, a ray is a source exactly when its scaled luminance exceeds the threshold.", "quantifier": "every list of rays and threshold", "why_tests_cant": "all list lengths", "anchors": ["raytools/evaluate/metricset.py:MetricSet.sources", "raytools/evaluate/metricset.py:MetricSet.background", "raytools/evaluate/metricset.py:MetricSet.threshold"]}
{"id": "C50", "title": "position index bounds", "statement": "PositionIndex().positions lies in [1,16] for every direction, is 1 at the view direction and 16 behind the view; the Kim index is positive.", "quantifier": "every direction and view", "why_tests_cant": "continuum including the singular directions where the formula divides by zero", "anchors": ["raytools/evaluate/positionindex.py:PositionIndex.positions"]}
{"id": "C51", "title": "cached metrics do not depend on access history", "statement": "reading a metric of a MetricSet returns the value its definition gives for that object's current data, after any interleaving of reads on any number of metric set objects and of assignments to their public attributes.", "quantifier": "every history of attribute reads and assignments over any number of objects", "why_tests_cant": "all histories", "anchors": ["raytools/evaluate/basemetricset.py:BaseMetricSet", "raytools/evaluate/metricset.py:MetricSet"]}
{"id": "C52", "title": "omega correction terminates and normalises", "statement": "with omega_as_view_area=False and more than 100 rays, construction terminates and yields omegas whose sum is the view area by scaling only edge rays by one common non-negative factor, unless no ray overlaps the edge; with True the view area is the sum of omega.", "quantifier": "every ray set", "why_tests_cant": "termination over all inputs", "anchors": ["raytools/evaluate/basemetricset.py:BaseMetricSet.omega"]}
{"id": "C53", "title": "construction of a metric set leaves its arguments alone and clips each stray ray to its own overlap", "statement": "BaseMetricSet(vec, omega, lum, vm) does not modify the caller's arrays, and the solid angle used for a bright ray overlapping the view edge is the overlap of that ray with the view.", "quantifier": "every ray set", "why_tests_cant": "only shows with two or more bright stray rays", "anchors": ["raytools/evaluate/basemetricset.py:BaseMetricSet.__init__"]}
{"id": "C54", "title": "metric name checking and order of results", "statement": "check_metrics returns exactly the known names in order; with raise_error it raises iff an unknown name is present; calling the object returns one value per requested metric in the requested order.", "quantifier": "every list of names", "why_tests_cant": "all lists", "anchors": ["raytools/evaluate/basemetricset.py:BaseMetricSet.check_metrics", "raytools/evaluate/basemetricset.py:BaseMetricSet.__call__"]}
{"id": "C55", "title": "colour and luminance metrics agree", "statement": "for a ColorMetricSet, illum equals the vlambda weighted sum of irradiance, and its rgb rows stay aligned with the masked rays.", "quantifier": "every ray set, every number of channels", "why_tests_cant": "all list lengths", "anchors": ["raytools/evaluate/colormetricset.py:ColorMetricSet"]}
{"id": "C56", "title": "normalize_peak conserves energy", "statement": "the total of omega*luminance over all rays is the same before and after normalize_peak, for every option combination that returns the full set.", "quantifier": "every ray set and parameter choice, every tie order of the sort", "why_tests_cant": "all inputs; the three branches and the blur correction must all conserve", "anchors": ["raytools/imagetools.py:find_peak", "raytools/imagetools.py:normalize_peak"]}
{"id": "C57", "title": "normalize_peak touches only bright rays near the peak", "statement": "every removed ray is above the threshold and within the peak radius of the brightest ray, all other rays are returned unchanged and in order, and with nothing above the threshold the input is returned unchanged.", "quantifier": "every ray set", "why_tests_cant": "all inputs", "anchors": ["raytools/imagetools.py:find_peak", "raytools/imagetools.py:normalize_peak"]}
{"id": "C58", "title": "secondary peak grouping terminates and conserves", "statement": "find_peak(findsecondary=True) terminates for unit vectors and a positive radius; every group's area times mean luminance is the energy of its members and groups are disjoint.", "quantifier": "every ray set", "why_tests_cant": "termination over all inputs", "anchors": ["raytools/imagetools.py:gather_strays"]}
{"id": "C59", "title": "imgmetric channel selection", "statement": "imgmetric computes colour metrics with the given weights, else the header's LuminanceRGB, else the Radiance default weights.", "quantifier": "every header and metric list", "why_tests_cant": "decision logic over all headers", "anchors": ["raytools/imagetools.py:imgmetric", "raytools/cli.py:metric"]}
{"id": "C60", "title": "weighted quantile is a value of the data range", "statement": "weighted_quantile returns for q in [0,1] a value between the smallest and largest included datum, the smallest for q=0, the largest for q=1, and agrees with the linear interpolation quantile when the weights are equal.", "quantifier": "every data set, weights, q and tie order", "why_tests_cant": "all inputs", "anchors": ["raytools/translate.py:weighted_quantile", "raytools/translate.py:weighted_median"]}
{"id": "C61", "title": "weighted quantile is monotone in q", "statement": "q1 <= q2 implies weighted_quantile(q1) <= weighted_quantile(q2).", "quantifier": "every data set, weights and pair of q", "why_tests_cant": "fails only in an interval of width 1e-5", "anchors": ["raytools/translate.py:weighted_quantile"]}
{"id": "C62", "title": "non uniform gaussian filter", "statement": "with amethod='mean' every output is between the smallest and largest y and constants are reproduced; output k belongs to input x[k] also when x is not sorted.", "quantifier": "every data set", "why_tests_cant": "all inputs and permutations", "anchors": ["raytools/translate.py:non_uniform_gaussian_filter"]}
{"id": "C63", "title": "cull_vectors keeps a maximal separated subset", "statement": "the kept vectors are pairwise farther apart than tol, every culled vector is within tol of a kept vector of smaller index, and the first vector is always kept.", "quantifier": "every list of vectors and tolerance", "why_tests_cant": "all inputs; chains of close points", "anchors": ["raytools/translate.py:cull_vectors"]}
{"id": "C64", "title": "resample scales by whole blocks", "statement": "down sampling by an integer factor returns block averages, up sampling without filter repeats each sample, and down sampling undoes up sampling, for every size and factor.", "quantifier": "every array and factor", "why_tests_cant": "unbounded sizes", "anchors": ["raytools/translate.py:resample"]}
{"id": "C65", "title": "simple_take", "statement": "simple_take returns along each given axis exactly the selected indices in order and keeps the number of dimensions.", "quantifier": "every array and index specification", "why_tests_cant": "all shapes", "anchors": ["raytools/translate.py:simple_take"]}
{"id": "C66", "title": "eye point spread and sun blur", "statement": "hpsf and inv_hpsf are inverse on (0,1] and non-negative radii, hpsf decreases, and blur_sun returns a factor >= 1 that is 1 exactly when the luminance does not exceed lmin, so area*factor and luminance/factor conserve energy.", "quantifier": "every radius, luminance and width", "why_tests_cant": "continuum", "anchors": ["raytools/evaluate/retina.py:hpsf", "raytools/evaluate/retina.py:inv_hpsf", "raytools/evaluate/retina.py:blur_sun"]}
{"id": "C67", "title": "retinal density model", "statement": "densities are positive, the binocular density is symmetric left/right, and each quadrant uses its own pair of meridians.", "quantifier": "every visual field position", "why_tests_cant": "continuum", "anchors": ["raytools/evaluate/retina.py:rgcf_density_xy", "raytools/evaluate/retina.py:binocular_density"]}
{"id": "C68", "title": "point spread coefficients are normalised", "statement": "GSS.psf_coef returns four weights that are positive and sum to one for every age, pigmentation in (0,1) and pupil diameter.", "quantifier": "every age, pigmentation, pupil", "why_tests_cant": "continuum", "anchors": ["raytools/evaluate/hvsgsm.py:GSS.psf_coef"]}
{"id": "C69", "title": "cone response", "statement": "GSS.cone_response is in [0,1), increases with irradiance, decreases with adaptation level, and is 1/2 at the half saturation value.", "quantifier": "every irradiance and adaptation", "why_tests_cant": "continuum", "anchors": ["raytools/evaluate/hvsgsm.py:GSS.cone_response"]}
{"id": "C70", "title": "glare score bounds", "statement": "normalized_field_response is in [0,1) and zero outside the view, and the raw GSS is non-negative, monotone in every response and at most (2*sum omega)^(1/4).", "quantifier": "every response image", "why_tests_cant": "all image sizes", "anchors": ["raytools/evaluate/hvsgsm.py:GSS.normalized_field_response", "raytools/evaluate/hvsgsm.py:GSS.gss"]}
{"id": "C71", "title": "receptive field bins cover every pixel once", "statement": "field_response assigns every pixel with eccentricity in [0,1) exactly one filter width.", "quantifier": "every eccentricity", "why_tests_cant": "continuum with 31 boundaries", "anchors": ["raytools/evaluate/hvsgsm.py:GSS.field_response", "raytools/evaluate/hvsgsm.py:GSS.sigma_c"]}
{"id": "C72", "title": "GSS derived arrays match the current view and image", "statement": "after any history of image and view assignments the solid angles, mask and eccentricities used by compute() are those of the current view and resolution.", "quantifier": "every history of assignments", "why_tests_cant": "all histories", "anchors": ["raytools/evaluate/hvsgsm.py:GSS.lum", "raytools/evaluate/hvsgsm.py:GSS.vm"]}
{"id": "C73", "title": "eccentricity scaling", "statement": "sigma_c is within [emin, emax] for every direction and equals emin at the view direction.", "quantifier": "every direction", "why_tests_cant": "continuum", "anchors": ["raytools/evaluate/hvsgsm.py:GSS.sigma_c"]}
{"id": "C74", "title": "local adaptation", "statement": "local_eye_adaptation is a weighted geometric mean of local and global irradiance: positive, monotone in both and equal to the common value when they agree.", "quantifier": "every irradiance", "why_tests_cant": "continuum; the zero irradiance branch", "anchors": ["raytools/evaluate/hvsgsm.py:GSS.local_eye_adaptation"]}
{"id": "C75", "title": "metric table rows match images", "statement": "the metric command prints one row per image in the order given, with one column per printed metric name, for every metric list including gss and gssnb.", "quantifier": "every image list and metric list", "why_tests_cant": "all lists", "anchors": ["raytools/cli.py:metric"]}
{"id": "C76", "title": "equisolid to angular conversion samples the right radius", "statement": "array_solid2ang and array_ang2solid of a 180 degree image sample, for every pixel, the source at the same azimuth and at the radius given by the equisolid law r = sin(theta/2)/(2 sin(45 deg)), to within 1e-9 of the image width.", "quantifier": "every pixel position of the image circle, every view direction", "why_tests_cant": "continuum of positions; the code's 1e-9 guard term is part of the claim", "anchors": ["raytools/mapper/viewmapper.py:ViewMapper.solid_vxy2xyz", "raytools/mapper/viewmapper.py:ViewMapper.solid_xyz2vxy", "raytools/imagetools.py:array_solid2ang", "raytools/imagetools.py:array_ang2solid"]}
{"id": "C77", "title": "SolidViewMapper pixels follow the equisolid projection", "statement": "the distance from the image centre of SolidViewMapper.xyz2vxy(v) is proportional to sin(theta/2) where theta is the angle between v and the view direction.", "quantifier": "every direction in view", "why_tests_cant": "continuum", "anchors": ["raytools/mapper/solidviewmapper.py:SolidViewMapper.xyz2vxy"]}
{"id": "C78", "title": "transform_to converts from self to other", "statement": "ViewMapper.transform_to(img, other) takes an image in the projection of self and returns the image in the projection of other: every output pixel has the value of the input at the pixel that self assigns to the output pixel's direction, zero when out of view.", "quantifier": "every pair of views, image and interpolator reproducing affine images", "why_tests_cant": "all images and views", "anchors": ["raytools/mapper/viewmapper.py:ViewMapper.transform_to"]}
{"id": "C79", "title": "in_view is the inscribed circle of the image", "statement": "ViewMapper.in_view(v) holds exactly when xyz2vxy(v) lies strictly inside the circle inscribed in the image square; the pixel of every accepted direction is a valid index, and every direction of the uv square is accepted.", "quantifier": "every unit direction, view direction and view angle up to 180", "why_tests_cant": "continuum", "anchors": ["raytools/mapper/angularmixin.py:AngularMixin.in_view", "raytools/mapper/angularmixin.py:AngularMixin.xyz2vxy"]}
{"id": "C80", "title": "vxy2xyz leaves its argument unchanged", "statement": "calling vxy2xyz does not modify the array passed in, and its result does not depend on whether an array or a nested sequence was passed.", "quantifier": "every argument list and both argument kinds", "why_tests_cant": "all arrays; aliasing", "anchors": ["raytools/mapper/angularmixin.py:AngularMixin.vxy2xyz", "raytools/mapper/mapper.py:Mapper.vxy2xyz"]}
{"id": "C81", "title": "pixel areas of the base mapper sum to the mapped area", "statement": "Mapper.pixel2omega summed over all pixels of framesize(res) equals the area of the mapper's bounding box.", "quantifier": "every mapper and resolution", "why_tests_cant": "unbounded resolution", "anchors": ["raytools/mapper/mapper.py:Mapper.pixel2omega", "raytools/mapper/mapper.py:Mapper.framesize"]}
{"id": "C82", "title": "hdr2vol rows belong together", "statement": "hdr2vol returns one direction, one solid angle and one value for each pixel of the image, in the same order.", "quantifier": "every image size, content and view", "why_tests_cant": "unbounded image sizes; alignment of three arrays", "anchors": ["raytools/imagetools.py:hdr2vol", "raytools/mapper/angularmixin.py:AngularMixin.pixelrays", "raytools/mapper/mapper.py:Mapper.pixels"]}
{"id": "C83", "title": "pixel solid angles do not depend on where the view points", "statement": "ViewMapper.pixel2omega is non-negative, the same for every view direction, and symmetric under mirroring and transposing the image; on the horizontal axis it is 4 sin(h) sin(rho) h / rho for half pixel angle h and rho the distance, in angle, of the axis to the upper edge of the pixel.", "quantifier": "every view direction, angle, resolution and pixel position", "why_tests_cant": "continuum", "anchors": ["raytools/mapper/angularmixin.py:AngularMixin.pixel2omega"]}
{"id": "C84", "title": "cleaning a header is idempotent", "statement": "clean_header(clean_header(h)) == clean_header(h).", "quantifier": "every header text", "why_tests_cant": "all header texts", "anchors": ["raytools/io.py:CleanHeader", "raytools/io.py:clean_header"]}
{"id": "C85", "title": "header lines reach the image unchanged", "statement": "array2hdr(a, f, header) and carray2hdr pass every header line to getinfo -a as exactly one argument with exactly its characters.", "quantifier": "every list of header lines", "why_tests_cant": "all strings, including quotes and backslashes", "anchors": ["raytools/io.py:array2hdr", "raytools/io.py:carray2hdr"]}
{"id": "C86", "title": "the position index grows with eccentricity", "statement": "PositionIndex().positions never decreases when a direction moves away from the view direction at constant azimuth, is the same for left and right, does not depend on the length of the vector and depends only on where the direction is in the view.", "quantifier": "every view, azimuth and pair of angles", "why_tests_cant": "continuum; joins of the two formulas at the horizon", "anchors": ["raytools/evaluate/positionindex.py:PositionIndex.positions"]}
{"id": "C87", "title": "glare metrics follow the published formulas", "statement": "illum is the cosine weighted sum of luminance times solid angle; dgp is min(1, 5.87e-5 Ev + 9.18e-2 log10(1 + sum L^2 w / (Ev^1.87 P^2)) + 0.16) and ugr is max(0, 8 log10(0.25 / Lb sum L^2 w / P^2)) over the rays above the threshold.", "quantifier": "every list of rays with light", "why_tests_cant": "all list lengths and real values", "anchors": ["raytools/evaluate/metricset.py:MetricSet.dgp", "raytools/evaluate/metricset.py:MetricSet.ugr", "raytools/evaluate/basemetricset.py:BaseMetricSet.illum"]}
{"id": "C88", "title": "framesize keeps the resolution and the aspect ratio", "statement": "Mapper.framesize(res) has its longer side equal to res and the other within half a pixel of the aspect ratio.", "quantifier": "every aspect ratio and resolution", "why_tests_cant": "unbounded resolutions, rounding", "anchors": ["raytools/mapper/mapper.py:Mapper.framesize"]}
{"id": "C89", "title": "Mapper.in_view is the bounding box", "statement": "Mapper.in_view(v) holds exactly for points inside or on the edge of the bounding box of the mapper.", "quantifier": "every mapper and point", "why_tests_cant": "continuum", "anchors": ["raytools/mapper/mapper.py:Mapper.in_view"]}
{"id": "C90", "title": "the area of a view is its solid angle", "statement": "ViewMapper.area is the solid angle 2 pi (1 - cos(viewangle / 2)) of the view cone, 4 pi for a 360 degree view.", "quantifier": "every view angle", "why_tests_cant": "continuum", "anchors": ["raytools/mapper/viewmapper.py:ViewMapper.viewangle"]}
{"id": "C91", "title": "a weighted quantile splits the weight", "statement": "the data below weighted_quantile(d, w, q) carry at most q of the total weight and the data above it at most 1 - q, and the result depends only on the weighted data, not on the order of equal data.", "quantifier": "every data set and weights", "why_tests_cant": "all inputs", "anchors": ["raytools/translate.py:weighted_quantile", "raytools/translate.py:weighted_median"]}
{"id": "C92", "title": "down sampling uses the requested whole number factor", "statement": "resample to 1/k of the length of an axis averages blocks of k samples also in float64 arithmetic.", "quantifier": "every factor and length", "why_tests_cant": "rounding errors at isolated factors", "anchors": ["raytools/translate.py:resample"]}
{"id": "C93", "title": "normalize_peak makes nothing brighter than the peak", "statement": "without blur or photo corrections no ray returned by normalize_peak has a higher luminance than the brightest input ray.", "quantifier": "every ray set and parameter choice", "why_tests_cant": "all inputs; depends on the pixel size", "anchors": ["raytools/imagetools.py:normalize_peak", "raytools/imagetools.py:find_peak"]}
{"id": "C94", "title": "normalize_peak conserves colours", "statement": "the energy of each colour channel is the same before and after normalize_peak.", "quantifier": "every colour ray set and parameter choice", "why_tests_cant": "all inputs, all branches", "anchors": ["raytools/imagetools.py:normalize_peak", "raytools/imagetools.py:find_peak"]}
{"id": "C95", "title": "the retinal meridians agree at the fovea", "statement": "rgcf_density_on_meridian(0, m) is the same foveal density for the four meridians m.", "quantifier": "all meridians", "why_tests_cant": "a property of the real valued formula", "anchors": ["raytools/evaluate/retina.py:rgcf_density_on_meridian"]}
{"id": "C96", "title": "pupil diameter", "statement": "GSS.pupil returns a diameter between 1.1 and 8 mm with the area of that circle for every illuminance and every age from 10 to 100, and the pupil closes as the illuminance grows.", "quantifier": "every illuminance and age", "why_tests_cant": "continuum", "anchors": ["raytools/evaluate/hvsgsm.py:GSS.pupil"]}
{"id": "C97", "title": "the point spread function distributes all light", "statement": "for every age, pigmentation and pupil the point spread function is positive and integrates to one over the hemisphere, and the discrete kernel sums to the part captured by its window.", "quantifier": "every age, pigmentation, pupil and kernel", "why_tests_cant": "an integral over a continuum", "anchors": ["raytools/evaluate/hvsgsm.py:GSS.psf_coef", "raytools/evaluate/hvsgsm.py:GSS.f_b", "raytools/evaluate/hvsgsm.py:GSS.psf"]}
{"id": "C98", "title": "every accepted image gets a bounded glare score", "statement": "GSS.compute on a square non-negative image with light at the eye returns a finite score between 0 and 33.5 (raw: 1) times the fourth root of the solid angle in view; an image is accepted exactly if a visible pixel has light.", "quantifier": "every image, view, age and parameter choice", "why_tests_cant": "all images and image sizes", "anchors": ["raytools/evaluate/hvsgsm.py:GSS.compute", "raytools/evaluate/hvsgsm.py:GSS.lum"]}
{"id": "C99", "title": "uniform images", "statement": "the glare score of a uniform image does not depend on the point spread, eye movement or filter settings, and has a closed form in its luminance.", "quantifier": "every uniform image, view and parameter choice", "why_tests_cant": "all image sizes and all filters", "anchors": ["raytools/evaluate/hvsgsm.py:GSS.compute"]}
{"id": "C100", "title": "the score does not depend on earlier images", "statement": "processing an image with a GSS object that has already processed any other square images gives the same score, or the same exception, as with a new object.", "quantifier": "every history of images", "why_tests_cant": "all histories", "anchors": ["raytools/evaluate/hvsgsm.py:GSS.compute", "raytools/evaluate/hvsgsm.py:GSS.lum"]}
{"id": "C102", "title": "metrics do not depend on which others are asked for", "statement": "the value imgmetric returns for a metric is the same whichever other metrics, including irradiance, are in the list.", "quantifier": "every image, option and metric list", "why_tests_cant": "all lists; colour metrics take another code path", "anchors": ["raytools/imagetools.py:imgmetric"]}
{"id": "C101", "title": "each image gets its own result file", "statement": "project, align, solid2ang and the saved glare images write the result for each image to a path beside it that is different for different images and options, write over no image given to the command, and leave the same files whatever the order in which the parallel tasks run.", "quantifier": "every list of paths, every option and every schedule", "why_tests_cant": "all strings; all interleavings of the pool", "anchors": ["raytools/imagetools.py:hdr_uv2ang", "raytools/imagetools.py:hdr_ang2uv", "raytools/imagetools.py:hdr_solid2ang", "raytools/imagetools.py:hdr_rotate", "raytools/evaluate/hvsgsm.py:process_gss", "raytools/cli.py:project", "raytools/cli.py:align", "raytools/cli.py:solid2ang"]}
{"id": "C103", "title": "scores belong to their image", "statement": "gss_compute returns one glare score for each image file, in the order of the files, and each is the score of that image in its own view, whichever other files are in the list.", "quantifier": "every list of image files and illuminances", "why_tests_cant": "all lists", "anchors": ["raytools/evaluate/hvsgsm.py:gss_compute", "raytools/evaluate/hvsgsm.py:process_gss"]}
{"id": "C104", "title": "array_rotate turns images about their centre", "statement": "array_rotate(img, ang) returns an image of the same size in which pixel (i, j) is the input interpolated at the centre of (i, j) turned by ang degrees about the image centre, so that images with a bilinear gradient are turned without error; images that are not square are rejected with ValueError.", "quantifier": "every square image, angle, fill value and method", "why_tests_cant": "the sampling goes through spherical coordinates; all sizes and angles", "anchors": ["raytools/imagetools.py:array_rotate"]}
{"id": "C105", "title": "rotation by nothing changes nothing", "statement": "array_rotate(img, 0) returns the image, and small angles change it little.", "quantifier": "every image and method", "why_tests_cant": "all sizes and all angles", "anchors": ["raytools/imagetools.py:array_rotate"]}
{"id": "C106", "title": "quarter turns move whole pixels", "statement": "array_rotate(img, 90, nearest=True) returns the image with its pixels moved by a quarter turn, and four quarter turns return the original.", "quantifier": "every square image", "why_tests_cant": "all sizes", "anchors": ["raytools/imagetools.py:array_rotate"]}
{"id": "C107", "title": "rotation and centering stay in the range of the image", "statement": "every pixel array_rotate returns lies between the smallest and largest pixel of the input (and fill value), nearest=True returns only pixels of the input, and constant images stay constant.", "quantifier": "every image, angle, center, order, fill value and method", "why_tests_cant": "all images and angles", "anchors": ["raytools/imagetools.py:array_rotate"]}
{"id": "C108", "title": "centering puts the given pixel in place", "statement": "with center=(a, b) the middle pixel of the result is pixel (a, b) of the input, whatever the angle and method; with center=(a, b, x, y) pixel (a, b) moves to the point (x, y).", "quantifier": "every image of odd size, pixel, angle, fill value and method", "why_tests_cant": "all sizes and pixels", "anchors": ["raytools/imagetools.py:array_rotate"]}
{"id": "C109", "title": "rotate_first selects the order", "statement": "array_rotate rotates before it centers if rotate_first is true, and centers before it rotates otherwise.", "quantifier": "every image and center", "why_tests_cant": "all images and centers", "anchors": ["raytools/imagetools.py:array_rotate"]}
{"id": "C110", "title": "transform_to resamples an image by direction", "statement": "transform_to between views of up to 180 degrees keeps the image circle of an image converted to its own view, converts gradients without error, is linear in the image, makes no new values with nearest=True, and blackens pixels outside of the other view; it works for every view.", "quantifier": "every pair of views, image and method", "why_tests_cant": "all images, sizes and view directions", "anchors": ["raytools/mapper/viewmapper.py:ViewMapper.transform_to"]}
{"id": "C111", "title": "array_solid2ang converts between the fisheye projections", "statement": "array_solid2ang gives an angular fisheye image whose pixel at angle t from the axis shows the equisolid input at the radius of t (within 1e-9 of the image size), reverse=True the converse; nearest=True makes no new values; results are in the range of the image; views above 180 degrees and images that are not square raise ValueError.", "quantifier": "every square image and pixel", "why_tests_cant": "all sizes; the two mappers involved are both documented the other way round", "anchors": ["raytools/imagetools.py:array_solid2ang", "raytools/mapper/viewmapper.py:ViewMapper.transform_to", "raytools/mapper/solidviewmapper.py:SolidViewMapper"]}
{"id": "C112", "title": "img_size returns (width, height)", "statement": "img_size(file) returns (width, height) for either order and any signs of the axes in the resolution string, whatever the file is called.", "quantifier": "every file name, width, height and resolution string", "why_tests_cant": "all names and sizes", "anchors": ["raytools/imagetools.py:img_size"]}
{"id": "C113", "title": "vf_to_vm reads back the last view of a view file", "statement": "vf_to_vm returns the view whose header line is the last view in the file, wherever the line is and in whatever order its options come; files without a -vta view raise ValueError.", "quantifier": "every view, file and option order", "why_tests_cant": "all files and views", "anchors": ["raytools/imagetools.py:vf_to_vm", "raytools/mapper/viewmapper.py:ViewMapper.header"]}
{"id": "C114", "title": "a written view has a usable up vector", "statement": "the view line a ViewMapper writes to an image header names an up vector that is not parallel to the view direction.", "quantifier": "every view direction, angle and view point", "why_tests_cant": "all directions", "anchors": ["raytools/mapper/angularmixin.py:AngularMixin.header"]}
{"id": "C115", "title": "xyz2skybin with a tolerance returns the sky bins near the directions", "statement": "xyz2skybin(xyz, side, tol) with tol > 0 returns, sorted and without repetition, the sky bins with a point within tol bin widths of a direction; with tol = 0 it returns the bin of each direction.", "quantifier": "every direction, side and tolerance", "why_tests_cant": "all directions, sides and tolerances", "anchors": ["raytools/translate.py:xyz2skybin"]}
{"id": "C116", "title": "non_uniform_gaussian_filter treats the rows of y alike and alone", "statement": "with coordinates xr each value is the average of its row, weighted with the normal density around the coordinate, in any order of the samples; several rows give what each row alone gives; a row without weight is interpolated; the median is the quantile 1/2, and quantiles are between the values that have weight; this holds for any number of rows; without xr the coordinates are those of the data.", "quantifier": "every x, y, xr, bandwidth and averaging method", "why_tests_cant": "all data, orders of the samples and densities that may vanish", "anchors": ["raytools/translate.py:non_uniform_gaussian_filter", "raytools/translate.py:weighted_quantile"]}
{"id": "C117", "title": "the smooth command prints smoothed columns", "statement": "smooth prints one line per coordinate (a given number of them in equal steps from the least to the greatest x, or those given) with the average of each column weighted with a normal density of the width sigma*sf (by default that of Scott's rule); values stay within the range of the column and do not depend on the unit of x; without columns it prints the density estimate with that width.", "quantifier": "every file, column choice, x_out, sigma and sf", "why_tests_cant": "all data and options", "anchors": ["raytools/cli.py:smooth", "raytools/translate.py:non_uniform_gaussian_filter"]}
{"id": "C118", "title": "image file names reach the Radiance programs unchanged", "statement": "hdr2array, hdr2carray and hdr_header hand the name of the image file to pvalue and getinfo as one argument, unchanged, whatever its characters; so the pixels of that very file are read, and a file that does not exist raises ValueError.", "quantifier": "every file name", "why_tests_cant": "all names, including blanks and quotes", "anchors": ["raytools/io.py:hdr2array", "raytools/io.py:hdr2carray", "raytools/io.py:hdr_header"]}
{"id": "C119", "title": "hdr_header returns the header of the file", "statement": "hdr_header(imgf) returns the name of the file and its header lines after the first, in order; it raises FileNotFoundError for a file that does not exist, and only then.", "quantifier": "every file name and header", "why_tests_cant": "all headers", "anchors": ["raytools/io.py:hdr_header"]}
{"id": "C120", "title": "the cleanheader command keeps pixels and the cleaned header", "statement": "cleanheader writes the image with the pixels it has read, and adds the name of the file, the ordinary lines of its header in order and the last view, whatever the header says.", "quantifier": "every image, name and header", "why_tests_cant": "all images and headers", "anchors": ["raytools/cli.py:cleanheader", "raytools/io.py:hdr2carray", "raytools/io.py:carray2hdr", "raytools/io.py:hdr_header"]}
{"id": "C121", "title": "bins survive rounding", "statement": "in double precision uv2bin(bin2uv(b, side, offset), side) = b for every bin and offset in [0, 1), uv2ij returns for every point of the two unit squares a cell in range, in the right square and off by no more than a rounding error (a point at one edge never ends up at the other), and cells are in the order of the points.", "quantifier": "every side, bin, offset and point, as binary64 numbers", "why_tests_cant": "all binary64 numbers and sides", "anchors": ["raytools/translate.py:uv2ij", "raytools/translate.py:uv2bin", "raytools/translate.py:bin2uv"]}
{"id": "C122", "title": "norm returns unit vectors in double precision", "statement": "norm and norm1 return in double precision, for every vector that is not zero, a vector whose length is 1 and whose direction is that of the argument, both up to rounding; norm1 keeps the zero vector.", "quantifier": "every vector of binary64 numbers", "why_tests_cant": "all binary64 numbers", "anchors": ["raytools/translate.py:norm", "raytools/translate.py:norm1"]}
{"id": "C123", "title": "angles of unit vectors are defined in double precision", "statement": "in double precision no rounding error makes an angle nan: the components of a vector norm returns are between -1 and 1 (so xyz2tp has a polar angle), ctheta has an angle for every pair of vectors, the position index a tilt for every source off the axis, every height between -1 and 1 a circle, and chord2theta an angle for the distance of every two vectors norm returns.", "quantifier": "every vector of binary64 numbers", "why_tests_cant": "all binary64 numbers", "anchors": ["raytools/translate.py:xyz2tp", "raytools/translate.py:ctheta", "raytools/translate.py:chord2theta", "raytools/translate.py:norm", "raytools/mapper/angularmixin.py:AngularMixin.ctheta", "raytools/evaluate/positionindex.py:PositionIndex"]}
{"id": "C124", "title": "importing raytools extends the search path of the Radiance programs", "statement": "after importing raytools RAYPATH names the current directory, the cal directory of the package and the directories it named before, each once; Radiance programs find a file in the first two of them and otherwise where they found it before; importing again (or in a program started by this one) changes nothing.", "quantifier": "every value of RAYPATH and place of the package", "why_tests_cant": "all values of the variable and all files", "anchors": ["raytools/__init__.py:set_raypath"]}
{"id": "C125", "title": "init_img returns an image, its vectors and its mask", "statement": "init_img returns a zero array of shape (res*aspect, res), with the features in front if there are several, a direction vector for each pixel (the direction of the pixel centre in the projection asked for by any of the documented names), a mask of the pixels within the image circle as indices or booleans, the same for all features in mask2, and a header that names that projection.", "quantifier": "every view, resolution, number of features and projection name", "why_tests_cant": "all views, resolutions and pixels", "anchors": ["raytools/mapper/angularmixin.py:AngularMixin.init_img", "raytools/mapper/viewmapper.py:ViewMapper.init_img", "raytools/mapper/viewmapper.py:ViewMapper._process_viewproj", "raytools/mapper/mapper.py:Mapper.init_img"]}
{"id": "C126", "title": "grow draws squares", "statement": "add_vecs_to_img(img, v, c, grow=g) sets the (2g+1)x(2g+1) pixels around every pixel a vector falls on to c, and leaves all other pixels as they are.", "quantifier": "every image, vector list, value and grow", "why_tests_cant": "all images and arrangements of vectors", "anchors": ["raytools/mapper/angularmixin.py:AngularMixin.add_vecs_to_img", "raytools/mapper/mapper.py:Mapper.add_vecs_to_img"]}
{"id": "C127", "title": "plot shows the vectors in view", "statement": "plot(xyz, outf, res, grow) writes an image with the header of the view in which the squares around the pixels of the vectors in view are lit, and all else is black.", "quantifier": "every view, vector list, resolution and grow", "why_tests_cant": "all views and vectors", "anchors": ["raytools/mapper/mapper.py:Mapper.plot"]}
{"id": "C128", "title": "converted image files say what their image is", "statement": "the file hdr_solid2ang writes has one view, read back by hdr2vm: that of the converted image, with the view direction and point of the source and the view angle given, that of the source, or 180; hdr_rotate and hdr_uv2ang keep the view of the source, and hdr_ang2uv, whose result is not an angular image, does not leave a view behind.", "quantifier": "every source image, header, angle and rotation", "why_tests_cant": "all headers and numbers", "anchors": ["raytools/imagetools.py:hdr_solid2ang", "raytools/imagetools.py:hdr_rotate", "raytools/imagetools.py:hdr_ang2uv", "raytools/imagetools.py:hdr_uv2ang", "raytools/imagetools.py:hdr2vm", "raytools/io.py:carray2hdr"]}
{"id": "C129", "title": "the square image of an angular image depends on the view", "statement": "hdr_ang2uv (project --ang2uv) with useview uses the view direction of the header, so that the result matches the standard projection.", "quantifier": "every image and view", "why_tests_cant": "all view directions and images", "anchors": ["raytools/imagetools.py:hdr_ang2uv", "raytools/imagetools.py:array_ang2uv", "raytools/cli.py:project"]}
{"id": "C130", "title": "sums over rays in double precision", "statement": "illum and avglum as computed in double precision are those of the exact sums up to rounding, whatever the order in which the rays are stored and numpy adds the terms: the error is a part of all the light, at most the number of additions times 2^-52; two orders give nearly the same value; and more light in front of the viewer never gives a lower illuminance, not even by rounding.", "quantifier": "every list of up to about 2^40 rays with luminance and solid angle from 0 to 2^200, every view direction and scale, and every order and grouping of the additions", "why_tests_cant": "all numbers and all orders of addition (they depend on the length of the arrays and on the processor)", "anchors": ["raytools/evaluate/basemetricset.py:illum", "raytools/evaluate/basemetricset.py:avglum"]}
{"id": "C131", "title": "a worker that dies", "statement": "when a worker process dies (killed, out of memory), at whatever moment, pool_call returns the results of the loop, raises what the loop raises, or raises BrokenProcessPool; the last only when a call was not submitted or had not finished. It never returns a short or wrong list, makes no call twice, and does not hang.", "quantifier": "every function, argument list, schedule and moment of the death", "why_tests_cant": "every interleaving and every crash point", "anchors": ["raytools/utility.py:pool_call"]}
{"id": "C132", "title": "no calls go on after pool_call", "statement": "when pool_call has returned or raised, no call is waiting, running or started later, as for the loop it is said to be equivalent to.", "quantifier": "every function, argument list and schedule", "why_tests_cant": "every interleaving", "anchors": ["raytools/utility.py:pool_call", "raytools/utility.py:TStqdm"]}
{"id": "C133", "title": "angles as arrays and as whole numbers", "statement": "tpnorm returns the angles reduced to 0 <= theta < pi and 0 <= phi < 2 pi and tp2xyz their directions, the same for a list and for an array; neither changes its argument; calling again with the same argument gives the same directions; whole numbers are angles like any others.", "quantifier": "every list or array of angles", "why_tests_cant": "all angles and kinds of argument", "anchors": ["raytools/translate.py:tpnorm", "raytools/translate.py:tp2xyz"]}
{"id": "C134", "title": "long header lines", "statement": "clean_header comes to an end for every header; every line of its result that stays from the header is cut into lines of at most 150 characters, the first as it stands and each further one behind the key and an equals sign (or behind dots, for a command), with no character lost or added; read again, the parts are one line: cleaning a cleaned header changes nothing, and header_items finds the same values in it as in the original. It never ends when a key has 149 or more characters and its line is too long; with a key of 148 characters the lines have 151; the view is not cut; and a word cut at a hyphen gets a blank when it is read again.", "quantifier": "all headers: any depth, any number of lines of any length, words of any length", "why_tests_cant": "where lines are broken depends on every length, blank and hyphen; a test that hangs settles nothing", "anchors": ["raytools/io.py:CleanHeader", "raytools/io.py:CleanHeader.header", "raytools/io.py:clean_header", "raytools/io.py:header_items"]}
{"id": "C135", "title": "insets and letters of header lines", "statement": "a header whose lines are inset by four spaces for each level, by tabs, or by a mixture of the two, with up to three spaces more, is cleaned to the same lines, and header_items finds the same values in it, as if every level were one tab; header_items takes two names for the same exactly when they differ in nothing but capital letters", "quantifier": "all headers of any length and depth, every mixture of tabs and spaces, all names", "why_tests_cant": "all insets in all combinations; a test has a few headers", "anchors": ["raytools/io.py:CleanHeader._preprocess", "raytools/io.py:clean_header", "raytools/io.py:header_items"]}
{"id": "C136", "title": "smoothing and resizing keep the light", "statement": "resample by whole factors, up or down, smoothed or not, keeps the mean of the image and stays within its range; so does smoothing without a change of the size, but with a uniform window of an even number of values it moves the image and changes the mean. A mirrored or transposed input gives the mirrored or transposed output. A bright pixel becomes a Gaussian spot of the radius asked for, cut off at four radii. The eye movements of the glare sensation score neither add nor lose light on the retina.", "quantifier": "all images of any size, all factors, radii and resolutions", "why_tests_cant": "all images and radii; borders behave differently from the middle", "anchors": ["raytools/translate.py:resample", "raytools/evaluate/hvsgsm.py:GSS.apply_eye_movement_1", "raytools/evaluate/hvsgsm.py:GSS.apply_eye_movement_2", "raytools/evaluate/hvsgsm.py:GSS.apply_psf"]}
{"id": "C137", "title": "left and right in the glare sensation score", "statement": "a square image and its mirror image, left and right exchanged, get the same glare sensation score or the same exception; with the point spread function on this needs a window of an odd number of pixels, whose kernel has its peak in the middle. With an even number the peak is set above the middle and the light is moved to one side.", "quantifier": "all square images of any size, all view directions and angles up to 180 degrees, all ages from 10 to 100 and every setting", "why_tests_cant": "all images; a symmetric test image cannot show a shift", "anchors": ["raytools/evaluate/hvsgsm.py:GSS.compute", "raytools/evaluate/hvsgsm.py:GSS.apply_psf", "raytools/evaluate/hvsgsm.py:GSS.prep_kernel", "raytools/evaluate/hvsgsm.py:GSS.field_response"]}
{"id": "C138", "title": "no pixel sees more than one in the middle", "statement": "the rays of two points of an image are no further apart than the distance of the points times the angle that the image covers, and the solid angle that ViewMapper.pixel2omega gives any pixel of the image is at most that of a pixel in the middle", "quantifier": "all view directions, angles up to 180 degrees, resolutions, points and pixels", "why_tests_cant": "an inequality over all pairs of points of the image", "anchors": ["raytools/mapper/angularmixin.py:AngularMixin.vxy2xyz", "raytools/mapper/angularmixin.py:AngularMixin.pixel2omega"]}
{"id": "C139", "title": "resample treats all axes alike", "statement": "an array with any number of axes, such as the channels of a colour image, is resampled like an image: made larger by whole factors along each axis its values are repeated, made smaller they are the means of blocks; mean and range stay, also when smoothed. The size asked for has a number for each axis, or one number for all of them; otherwise ValueError. Arrays with two axes give what images give.", "quantifier": "all arrays with any number of axes of any length, all whole factors and radii", "why_tests_cant": "every number of axes and every factor", "anchors": ["raytools/translate.py:resample"]}
{"id": "C140", "title": "images are read whole or not at all", "statement": "hdr2array and hdr2carray come to an end in whatever order raytools and pvalue run and however small the pipes are, and give the image of the file; if pvalue dies at any moment, or the file is cut short so that pvalue prints only the beginning, they raise ValueError and never return part of an image. This needs the messages of pvalue to fit into the pipe that nobody reads.", "quantifier": "all images, all schedules of the two processes, all pipe capacities, all moments of death and all lengths of the cut text", "why_tests_cant": "all schedules and crash points", "anchors": ["raytools/io.py:_hdr_in", "raytools/io.py:hdr2array", "raytools/io.py:hdr2carray"]}
{"id": "C141", "title": "images are written whole, in whatever order the programs run", "statement": "array2hdr and carray2hdr come to an end in whatever order raytools, pvalue and getinfo run, return without an exception, and the file gets everything that pvalue prints; at every moment, also when a program is killed, the file is the beginning of the finished one. The end is not reached for colour arrays with fewer than three channels, and failures of the programs are not reported.", "quantifier": "all arrays, all schedules of the three processes, all pipe capacities and moments of death", "why_tests_cant": "all schedules and crash points", "anchors": ["raytools/io.py:_array2hdr", "raytools/io.py:array2hdr", "raytools/io.py:carray2hdr"]}
{"id": "C142", "title": "luminance of pixels in double precision", "statement": "rgbe2lum decodes the channels of a pixel without rounding, and rgb2rad, rgb2lum and rgbe2lum give the exact sums of the channels times 0.265, 0.670 and 0.065 up to a relative error of a few units in the last place, in whatever order the products are added, fused with the addition or not; only a black pixel has the luminance zero, and of two pixels with the same exponent the one that is brighter in a channel and no darker in the others has more luminance", "quantifier": "all pixels (channels and exponents from 0 to 255, as bytes or as integers), all colours up to 2^300, all orders of at most a thousand operations", "why_tests_cant": "all of the 2^32 pixels, and the order of additions depends on the processor", "anchors": ["raytools/io.py:rgb2rad", "raytools/io.py:rgb2lum", "raytools/io.py:rgbe2lum"]}
{"id": "C143", "title": "glare counts less off the line of sight", "statement": "of two images with the same responses, the one whose mean eccentricity is larger never gets the larger score: the position weight falls from 33.1 on the line of sight to 9.8 at the border of the view. This fails below an eccentricity of 0.0103, where the weight rises first, by at most 0.05 percent.", "quantifier": "all responses and solid angles, all pairs of eccentricities from 0.009 to 0.12", "why_tests_cant": "a continuum of eccentricities, and the exception is a rise of 0.04 percent next to the line of sight", "anchors": ["raytools/evaluate/hvsgsm.py:GSS.gss", "raytools/evaluate/hvsgsm.py:GSS.ecc"]}
{"id": "C144", "title": "light scattered in the eye", "statement": "the further from a source, the less of its light falls on the retina: the point spread and the line spread function fall strictly with the angle, alike to both sides; the part of the light that is scattered widely grows with age and with the pigmentation parameter", "quantifier": "all angles up to 90 degrees, ages up to 100, pigmentation between 0 and 1, pupils from 1/4 to 100 mm", "why_tests_cant": "a continuum of angles and of four parameters", "anchors": ["raytools/evaluate/hvsgsm.py:f_b", "raytools/evaluate/hvsgsm.py:l_b", "raytools/evaluate/hvsgsm.py:GSS.psf_coef"]}
{"id": "C145", "title": "brighter scenes glare more", "statement": "when a scene gets brighter, the predicted glare does not fall: if all luminances (or the scale) are multiplied by a factor above one, dgp grows up to 1 and ugr does not fall, whatever the threshold. If only some of the rays get brighter, dgp can fall.", "quantifier": "all sets of rays, views, thresholds and factors", "why_tests_cant": "all scenes; with an absolute threshold more rays become sources as the scene gets brighter", "anchors": ["raytools/evaluate/metricset.py:MetricSet.dgp", "raytools/evaluate/metricset.py:MetricSet.ugr", "raytools/evaluate/metricset.py:MetricSet.threshold"]}
{"id": "C146", "title": "units of luminance", "statement": "multiplying all luminances (or all channels) that are given to a metric set by a positive factor has exactly the effect of multiplying its scale by that factor: the same rays are kept and clipped, the same solid angles come back, and every metric has the same value or raises the same exception", "quantifier": "all rays, views, options, factors and lists of metric names, of the three kinds of metric sets", "why_tests_cant": "all combinations of rays, options and more than twenty metrics", "anchors": ["raytools/evaluate/basemetricset.py:BaseMetricSet", "raytools/evaluate/metricset.py:MetricSet", "raytools/evaluate/colormetricset.py:ColorMetricSet"]}
{"id": "C147", "title": "order of the rays", "statement": "the order in which the rays are given does not matter: permuting directions, solid angles and luminances (or colours) together keeps the same rays and leaves the value of every metric unchanged, with and without the correction of the solid angles. It holds without bright rays at the edge of the view; with two of them, the one that comes last decides.", "quantifier": "all rays, permutations, views, options and lists of metric names", "why_tests_cant": "the permutations of all lists of rays", "anchors": ["raytools/evaluate/basemetricset.py:BaseMetricSet", "raytools/evaluate/metricset.py:MetricSet", "raytools/evaluate/colormetricset.py:ColorMetricSet"]}
{"id": "C148", "title": "heading of the view", "statement": "what a viewer sees does not depend on the compass: turning the view direction and all rays about the vertical axis by the same angle, or reflecting both in a vertical plane, changes neither the position index of a direction nor any metric of the rays. It holds for views that are not vertical; a view straight up has an arbitrary heading, on which the position index depends.", "quantifier": "all angles, planes, view directions and angles, rays, options and lists of metric names", "why_tests_cant": "a continuum of headings and scenes", "anchors": ["raytools/evaluate/basemetricset.py:BaseMetricSet", "raytools/evaluate/metricset.py:MetricSet", "raytools/evaluate/positionindex.py:PositionIndex.positions", "raytools/mapper/viewmapper.py:ViewMapper"]}
{"id": "C149", "title": "subdividing rays", "statement": "how finely a scene is sampled does not matter where luminance is uniform: replacing a ray by several of the same direction and luminance, whose solid angles add up to its own, changes no metric except density and avgraylum, which count rays. The solid angles are taken as given (as_area) and no bright rays lie at the edge of the view.", "quantifier": "all rays, subdivisions, views, options and lists of metric names", "why_tests_cant": "all ways to subdivide all lists of rays", "anchors": ["raytools/evaluate/basemetricset.py:BaseMetricSet", "raytools/evaluate/metricset.py:MetricSet"]}
{"id": "C150", "title": "scenes of one luminance", "statement": "where every ray has the same luminance, avglum, pwavglum, avgraylum and maxlum are that luminance (times the scale), gcr and pwgcr are 1 and their logarithms 0; a threshold relative to the task finds no sources, tasklum is that luminance, ugr is 0 and dgp is its illuminance term (at most 1). The solid angles are taken as given.", "quantifier": "all luminances, directions, solid angles, views and options", "why_tests_cant": "all uniform scenes, whatever their rays", "anchors": ["raytools/evaluate/basemetricset.py:BaseMetricSet", "raytools/evaluate/metricset.py:MetricSet"]}
{"id": "C151", "title": "raising the threshold", "statement": "raising the threshold finds no more glare: every source above the higher threshold is a source above the lower one, srcarea, srcillum and pwsl2 do not grow, backlum does not fall, and neither dgp nor ugr grows, provided both thresholds are fixed luminances (above 100) or both are multiples of the task luminance. From 100 (a multiple) to 101 (a luminance) glare can appear.", "quantifier": "all scenes, scales and pairs of thresholds", "why_tests_cant": "all pairs of thresholds on all scenes", "anchors": ["raytools/evaluate/metricset.py:MetricSet"]}
{"id": "C152", "title": "rays out of view", "statement": "rays that the view does not see change nothing: adding any number of them anywhere among the rays given to MetricSet or ColorMetricSet leaves the object, and so all metrics, as they were. With bright rays within one degree of the edge this fails: whether they count depends on the average luminance of all rays, seen or not.", "quantifier": "all views, rays, options, and all ways to add unseen rays", "why_tests_cant": "all sets of rays and insertions", "anchors": ["raytools/evaluate/basemetricset.py:BaseMetricSet.__init__", "raytools/evaluate/colormetricset.py:ColorMetricSet"]}
{"id": "C153", "title": "lengths of direction vectors", "statement": "directions need not be unit vectors: the lengths of the directions of rays (MetricSet, ColorMetricSet), of view directions (ViewMapper), of directions located in an image (xyz2vxy, ray2pixel), of directions given a position index, and of those given to norm, xyz2xy, and to xyz2uv and xyz2skybin with normalize=True change nothing. in_view and degrees of a view do depend on them.", "quantifier": "all directions and positive factors, one for each ray", "why_tests_cant": "all lengths of all vectors", "anchors": ["raytools/translate.py:norm", "raytools/translate.py:xyz2xy", "raytools/mapper/viewmapper.py:ViewMapper", "raytools/mapper/angularmixin.py:AngularMixin", "raytools/evaluate/basemetricset.py:BaseMetricSet.__init__"]}
{"id": "C154", "title": "exposure of images", "statement": "multiplying all pixels of an image by a factor has the effect of multiplying scale by it: imgmetric gives the same values or raises the same exception, and normalize_peak consolidates the same rays into a source of the same direction and size. With blursun this fails: the correction compares luminance with a fixed value and ignores scale.", "quantifier": "all images, views, options, metrics and positive factors", "why_tests_cant": "all images and factors", "anchors": ["raytools/imagetools.py:imgmetric", "raytools/imagetools.py:normalize_peak", "raytools/imagetools.py:find_peak", "raytools/evaluate/retina.py:blur_sun"]}
{"id": "C155", "title": "normalising the peak again", "statement": "normalize_peak is idempotent: applied to its own result it returns the same rays, where no ray kept is above the threshold (default peakc, no blursun), and the source it makes is never larger than peaka. With a bright ray left beside the source it is not: the second call consolidates that ray, and the maximum luminance falls again.", "quantifier": "all rays, luminances and colours, areas, thresholds and radii", "why_tests_cant": "all sets of rays, applied twice", "anchors": ["raytools/imagetools.py:normalize_peak", "raytools/imagetools.py:find_peak"]}
{"id": "C156", "title": "sources do not depend on the orientation of the axes", "statement": "rotating or reflecting the directions of all rays rotates or reflects the result of normalize_peak and the secondary sources of find_peak: the same rays are consolidated, into a source of the same size, luminance and colour, whose direction is moved in the same way, with all corrections; the same exceptions are raised.", "quantifier": "all rays, arguments, weights and all rotations and reflections", "why_tests_cant": "all rotations and sets of rays", "anchors": ["raytools/imagetools.py:normalize_peak", "raytools/imagetools.py:find_peak", "raytools/imagetools.py:gather_strays"]}
{"id": "C157", "title": "order of the rays with a peak", "statement": "the order in which the rays are given and the sort used do not matter for normalize_peak and the secondary sources: the same rays result, up to order, and the same exceptions. This holds where no two rays above the threshold are equally bright. Of rays that are equally bright the first ones in the order of the sort are consolidated, so that the colour and direction of the source depend on the order of the pixels.", "quantifier": "all lists of rays and their permutations, all sorts by descending luminance, all arguments", "why_tests_cant": "all permutations and all orders of equal keys", "anchors": ["raytools/imagetools.py:normalize_peak", "raytools/imagetools.py:find_peak", "raytools/imagetools.py:gather_strays"]}
{"id": "C158", "title": "rays below the threshold do not matter", "statement": "two lists of rays with the same rays above the threshold, whatever the others are and wherever they stand in between, give the same result of normalize_peak: the same source, made of the same rays, with the same bright rays left; all other rays are kept as they are, and the same exception is raised. The secondary sources are the same.", "quantifier": "all lists of rays with the same bright rays, all arguments, weights and sorts", "why_tests_cant": "all rays below the threshold and their places in the list", "anchors": ["raytools/imagetools.py:normalize_peak", "raytools/imagetools.py:find_peak", "raytools/imagetools.py:gather_strays"]}
{"id": "C159", "title": "the angle between directions is a distance", "statement": "for unit vectors radians and degrees fulfil the triangle inequality, also along paths of any number of directions, so that circles whose centres are further apart than the sum of their radii have no direction in common. Rotations and reflections keep the angle. Searching within the chord theta2chord(t) is searching within the angle t.", "quantifier": "all unit vectors, paths, angles, rotations and reflections", "why_tests_cant": "all directions and paths of any length", "anchors": ["raytools/translate.py:radians", "raytools/translate.py:degrees", "raytools/translate.py:ctheta", "raytools/translate.py:theta2chord"]}
{"id": "C160", "title": "culling vectors again", "statement": "where the ball query lists ascending indices, cull_vectors culls nothing more from the vectors it kept, and rotating, reflecting or shifting all vectors does not change the mask. A larger tolerance should keep no more vectors than a smaller one; this is false: five vectors of which a tolerance of 10 keeps two and a tolerance of 12 four.", "quantifier": "all lists of vectors, tolerances and motions", "why_tests_cant": "all lists of vectors, applied twice", "anchors": ["raytools/translate.py:cull_vectors"]}
{"id": "C161", "title": "weighted quantiles in other units", "statement": "weighted_quantile of data that are multiplied by a positive factor and shifted is its result multiplied and shifted in the same way, and multiplying weights and threshold by a positive factor changes nothing; the same exceptions are raised. Changing the sign of the data should change the sign of the weighted median; this is false: the weights 1, 2, 1 of the data 0, 1, 3 give 0.75, and -1.5 with the opposite signs.", "quantifier": "all data, weights, quantiles, thresholds and units", "why_tests_cant": "all data and units", "anchors": ["raytools/translate.py:weighted_quantile", "raytools/translate.py:weighted_median"]}
{"id": "C162", "title": "smoothing is linear", "statement": "non_uniform_gaussian_filter with amethod='mean' is linear in the values: smoothing a*y + c*z gives a times the smoothed y plus c times the smoothed z, for sorted and unsorted coordinates, with and without band width and new coordinates, also where values are interpolated in gaps; it fails only where smoothing y or z fails.", "quantifier": "all values, coordinates, widths, band widths and factors", "why_tests_cant": "all rows of values and factors", "anchors": ["raytools/translate.py:non_uniform_gaussian_filter"]}
