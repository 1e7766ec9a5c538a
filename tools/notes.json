{
 "C02": "exact reals; closed upper square and open lower square (edges of the lower square are identified with the horizon by the map)",
 "C03": "with flipu=True/xsign=-1 every unit vector; with the defaults only the closed upper hemisphere, lower hemisphere proved mirrored",
 "C07": "exact reals; C121 has the round trip in binary64",
 "C09": "tol=0; xyz2skybin with a tolerance is C115",
 "C10": "exact round trip outside two polar caps (1e-10 and 1e-10+1e-5*pi rad); inside them azimuth becomes pi; error bound for every direction but -z; -z maps to +z (refuted)",
 "C11": "az in (-90,270] round trips; documented (-180,180) refuted (west of -90 comes back +360); altitude -90 maps to the zenith (refuted)",
 "C14": "exact outside the lower cap / axis tolerance; within 1e-7 everywhere; exactness everywhere refuted",
 "C19": "rotation inverse and rigid for every direction and angle; the view direction goes exactly to +z outside the axis/pole tolerance band of norm1/rmtx_yp (regular_dir), within 1e-7 everywhere, exactness everywhere refuted",
 "C20": "exact reals; closed square up to 180 degrees; for 360 views the closed front square and the open back square; the centre maps to the view direction for regular directions",
 "C21": "exact reals, every real pixel coordinate in the frame and every integer pixel",
 "C22": "exact cone proved; sound for every view, complete only up to 0.89 of the half angle; completeness refuted for every view below 180 degrees (the chord factor shrinks the cone); exact at 180/360",
 "C23": "front half needs a regular direction, back half a regular opposite direction",
 "C24": "round trip within the guard term 1e-9; exact equality is false because of it",
 "C25": "refuted: the perspective mapper's formulas are the equisolid ones, the smaller of vv/vh is ignored; only the angle limit holds",
 "C26": "non-zero scale factors",
 "C27": "Mapper for every shape; ViewMapper for square shapes and, with uv2bin, for 2n x n; refuted for ViewMapper.idx2uv with uv2idx on other shapes",
 "C28": "refuted: pixel2ray flips x while ray2pixel does not, so integer pixels come back mirrored",
 "C29": "centres without jitter; with jitter pixels stay in their cell when the call succeeds, but it raises ValueError for almost every frame shape because the offset array is 2-d",
 "C30": "grow=0; fisheye drawing exact for every view; square drawing exact for 180/360, refuted below 180 (IndexError)",
 "C31": "",
 "C77": "refuted: angles are converted twice",
 "C78": "reads the image as if in the projection of other and returns it in the projection of self; documented direction refuted",
 "C80": "nested sequences are copied; ndarrays are modified in place (refuted) in both classes",
 "C32": "environment values as python int()/str() on ascii digits",
 "C33": "the called function is a pure function of its argument (no state shared between calls); pool start-up and shutdown not modelled",
 "C34": "process workers never exceed the cap; thread workers ignore it (refuted)",
 "C35": "single precision values as 32 bit patterns, bytes as integers",
 "C36": "pvalue is an oracle: packs pixels in scanline order with an arbitrary pixel encoding; equality is up to that encoding",
 "C37": "exact reals",
 "C38": "holds for signed integer arrays; for uint8 arrays e-128 wraps: refuted at every non-black pixel",
 "C39": "refuted: a text-mode read is compared with a bytes literal, so no file is ever recognised",
 "C40": "np.loadtxt is an arbitrary function of the file content",
 "C82": "holds for square images of views other than 360 degrees; refuted for 360 degree views (half of the solid angles missing)",
 "C83": "exact reals",
 "C41": "The last view surviving as the last line holds for every header. Absence of other VIEW, FORMAT and pvalue entries is proved for headers without blank lines when no line needs wrapping, excepting lines that end in a colon; refuted with a view line ending in a colon and with a pvalue command with an equals sign in its arguments.",
 "C42": "Proved for headers of any depth of files in files in which each file ends with a line of its own and no line is repeated or follows a line of the same key or program; files that end with another file, repeated lines, commands of the same program in a row, lines of one word and totality are refuted by witnesses. textwrap.fill is an oracle that leaves lines that fit alone.",
 "C43": "The length holds for every header. The last value is proved for headers without repeated lines, files in files included, and different requested keys; refuted otherwise by three witnesses.",
 "C44": "float printing and reading is an oracle (number_format); getinfo output is the header text.",
 "C84": "Proved for headers without repeated lines, files in files included; refuted with a repeated line, or an empty file, between two lines of the same key.",
 "C85": "Proved for non-empty lists of lines without single quotes; refuted with quotes, with an apostrophe (raises after the output file was truncated) and for the empty list.",
 "C45": "every metric accepted as safe to sum is shown to sum over rays or over light, except the density; additivity proved for sets without bright rays at the view edge and omega_as_view_area=True, unrestricted over the rays an object holds; refuted: avglum and density (listed as safe to sum) over ray sets, density/pwsl2/srcillum over luminances, non-negativity for 360 degree views",
 "C46": "full statement, by weighted Cauchy-Schwarz",
 "C47": "full statement for illum > 0; additionally nan in the dark",
 "C48": "proved for a positive background luminance; refuted without light (nan) and when every ray is a source (inf, probability 1)",
 "C49": "full statement; a threshold relative to an empty task area (0/0) makes no ray a source",
 "C50": "full statement; the Kim index is discontinuous at the view direction (1 there, below 1/5 right above it)",
 "C51": "holds for histories where assignments precede reads of the same object; refuted otherwise: functools caches are not invalidated by the setters; each defining class remembers one object per property: an old value survives reads of objects served by another class and is dropped by the same read of an object served by the same class (for the properties that read data only)",
 "C52": "full statement including termination",
 "C53": "single overlapping ray proved for rays no bigger than the view whose centre is outside (or not further inside than the common chord); refuted for the other overlapping rays, which get less than their overlap; the caller's omega array is overwritten, and all stray rays get the overlap of the last one",
 "C54": "full statement for MetricSet and ColorMetricSet (irradiance contributes one value per channel), BaseMetricSet needs at least one ray for maxlum (raises ValueError otherwise, C54_empty_maxlum_refuted)",
 "C55": "full statement",
 "C86": "full statement for the Guth index; symmetry and length also for Kim",
 "C87": "full statement for illum > 0 / background luminance > 0; low light off",
 "C88": "full statement",
 "C89": "the box used has size sf, not that of bbox: refuted for sf different from the size of bbox (the defaults allow it)",
 "C90": "full statement",
 "C60": "range and end points in full; equal weights agree with the linear interpolation quantile except for q in [1-1.001e-5, 1), where it is refuted (the lower datum is returned); IndexError when no weight is above the threshold; without weights it is the linear interpolation quantile of all data, whatever the threshold, and a q outside [0, 1] is a ValueError; weights that are all 0 and let in by a negative threshold are ignored",
 "C61": "proved outside q2 in [1-1.001e-5, 1); refuted there",
 "C62": "range and constants in full, with and without band width and resampling (weights only assumed >= 0, and > 0 at the sample itself where neither is given); where all weights vanish linear interpolation is proved; refuted for samples at one coordinate with the default width, which raise; the order is right for sorted x and refuted for unsorted x: 'resample is None' tests the function of that name and is never true",
 "C63": "full statement when the ball query lists ascending indices; refuted for other orders, which query_ball_tree does not exclude",
 "C64": "full statement for 2-d arrays in exact arithmetic, also for sizes that do not divide (mirrored border) and for smoothing; refuted for mixed up and down scaling and for the shape when the sizes do not divide; arrays with more axes are in C139, where enlarging one axis and shrinking another is shown to raise ZeroDivisionError",
 "C65": "full statement for distinct non negative axes, with the complete python slice semantics",
 "C91": "refuted: the weight of the smallest datum is never used, and the order of ties changes the result",
 "C92": "refuted by evaluating the binary64 expression in the kernel: 93 -> 1 uses blocks of 92",
 "C56": "full statement for unit vectors, positive thresholds, every branch, tie order and blur factor; radius 0 raises IndexError in the code and in the model",
 "C57": "full statement, plus the direction of the new ray (unit, within the radius)",
 "C58": "full statement; as many recursive calls as rays suffice; the reported direction is the mean and is not normalised",
 "C93": "holds for pixels no larger than blurtol*peaka; refuted for larger pixels, where the whole neighbourhood is absorbed",
 "C94": "holds for peakc > 1; refuted for the default: a partly visible source takes the colour of its brightest ray",
 "C66": "proved for every width, threshold and source with solid angle > 0; refuted for a source without solid angle (factor inf)",
 "C67": "positivity, left/right symmetry, monotonicity and the bounds hold; refuted: the sign of x chooses both meridians, so a quadrant does not use its own pair",
 "C95": "refuted: the foveal density multiplies only one of the two terms of the formula, so the meridians disagree at eccentricity 0",
 "C68": "weights for every age; positive widths for ages 0-100 and pupils of 0.25 mm and more",
 "C69": "full statement",
 "C70": "proved with the stronger bound (sum omega)^(1/4)",
 "C71": "full statement; the width is the nearest of the 31",
 "C72": "holds for square images in one view and whenever the image size changes; refuted: a new view with an image of the same size keeps the old arrays; a rejected non square image makes the object reject good images; a black image keeps the old eccentricity; 360 degree views are never accepted",
 "C73": "full statement, also: only the image centre has emin and the value grows along rays from it",
 "C74": "proved for positive irradiances; refuted at irradiance 0, which is treated as 1",
 "C96": "bounds for ages 10-100; closing proved for every age up to 38.2 and refuted for every age from 38.3 to 100, so settled for all whole ages",
 "C97": "for ages 0-100 and pupils of 0.25 mm and more; refuted for a 0.1 mm pupil, where a width is negative",
 "C98": "with the point spread function on, a non negative kernel is assumed for windows of several pixels (its peak correction can make it negative; proved for one pixel); refuted for windows of less than 0.004 degrees (IndexError); 360 degree views are excluded (C72)",
 "C99": "full statement for hemispherical and narrower windows of at least 0.004 degrees",
 "C100": "full statement; scale, view and parameters as in the new object",
 "C59": "proved: luminance metrics use the argument, else the header, else pvalue weights (header weights within 0.001 of these are replaced); colour metrics use the argument or the header. Refuted: colour metrics without weights raise TypeError, a header word that is not a number raises ValueError, and the peak normalisation of colour images ignores the weights",
 "C75": "rows proved for every list; columns proved without irradiance. Refuted: irradiance prints three values under one name, an empty list prints the names and fails, gss or gssnb twice fails",
 "C102": "proved for luminance metrics, and with irradiance when weights are given and peak normalisation is off; refuted without weights (TypeError) and with peak normalisation (maxlum changes)",
 "C101": "proved for distinct .hdr images when no result is also an image of the command. Refuted: align without options writes over its image, results depend on the order when a result is also an image, images that differ in extension only (or, with outdir, in directory only) share a result, so do rotations with the same integer part, and gss and gssnb share their saved images",
 "C103": "proved for square images in one view with as many illuminances as images. Refuted: every image is scored in the view of the first one, a black first image leaves all without score, and a short list of illuminances silently drops images",
 "C104": "full statement; scipy's interpolator is modelled from its documentation, images of 2 x 2 or more",
 "C105": "proved for the nearest method without fill value. Refuted: the linear method (the default) averages four pixels because the grid is half a pixel off the pixel centres, a fill value replaces the last row and column, and every angle between 0 and 90 degrees moves a pixel of a 2 x 2 image with the nearest method",
 "C106": "full statement",
 "C107": "proved with a fill value in range, for the nearest method and for constant images. Refuted for the default, which extrapolates to negative pixels",
 "C108": "full statement for pixels whose direction is neither the view axis, its opposite, nor vertical (regular_dir)",
 "C109": "refuted: for quarter turns, where pixels are moved exactly, both values center first",
 "C110": "full statement for views of up to 180 degrees (the other view regular). Refuted for 360 degree views, from which every image is rejected with ValueError",
 "C111": "proved for 180 degrees, for gradients (the interpolator is exact for these) and all values of the nearest method. Refuted: the linear method extrapolates at the rim and returns negative pixels for non-negative images",
 "C112": "proved for names without blanks; refuted for names with blanks whose last words contain an X or Y",
 "C113": "proved for views of up to 180 degrees; refuted: the header line of a 360 degree view is read back as its front half. A view line without -vd is rejected here but given the default direction by hdr2vm (C113_no_direction)",
 "C114": "proved for every direction but straight down, for which the header names an up vector parallel to the direction (refuted)",
 "C115": "full statement for tolerances of up to one bin and directions away from the edges u = 0 and v = 0, 1 of the sky square; refuted at these edges (bins of the opposite horizon), for larger tolerances (gaps) and for several directions (rejected, or nine of them with one offset each)",
 "C116": "full statement for the mean where every coordinate has data with weight, and for one row; refuted for two or more rows: in a gap without weights the interpolation raises, and the median and quantiles always raise",
 "C117": "full statement with columns given and a positive width; refuted: without a width (sf=0) two or more columns raise, and the density is estimated with sigma times the standard deviation as width, so that it depends on the unit of x",
 "C118": "full statement for names without blanks, line ends, quotes and backslashes; refuted for every other name (the command line is built as a text and split again)",
 "C119": "exact: the lines that mention RADIANCE are dropped, no others; refuted: a line such as SOFTWARE= RADIANCE 5.4 is lost, and a header that mentions 'cannot open' raises FileNotFoundError",
 "C120": "pixels for every header; the header for one level of lines without apostrophes and repetitions; refuted: apostrophes raise or are lost, and an empty cleaned header adds an empty line, which ends the header",
 "C121": "binary64 arithmetic, operation by operation; sides up to 2^25 and offsets in [2^-24, 1-2^-24], which includes the default 1/2; refuted for offset 0 (side 49)",
 "C122": "binary64 arithmetic, operation by operation; lengths from 2^-500 to 2^500; refuted outside: squares overflow (the result is 0) or underflow (inf and nan, or the vector itself)",
 "C123": "binary64 arithmetic, operation by operation; lengths from 2^-500 to 2^500; refuted for chord2theta: it does not clip, and the distance of the opposite unit vectors norm(1, 12, 34) and norm(-1, -12, -34) is above 2",
 "C124": "partial: refuted when RAYPATH is not set (the default directories are lost) and when the path of the package contains a colon; os.environ as a value, the search of the Radiance programs as the first directory that has the file",
 "C125": "equisolid images: proved for 180 degrees up to 10000 pixels; refuted for 360 degrees (vectors and mask for one half only), for narrower views (the mask is smaller than the circle), for the angles of the pixels (they follow the inverse of the equisolid law, see C77), and for the class SolidViewMapper, whose default header says equiangular",
 "C126": "proved for blank images: value c where squares lie within the image and do not overlap, non-zero in all squares, zero elsewhere; refuted at the edge (4c in the corner), for overlapping squares (2c) and for what the image had before (multiplied by (2g+1)^2, in planes with the value None too)",
 "C127": "the image and header passed to array2hdr; refuted for 360 degree views: the image is square and shows nothing behind the view plane",
 "C128": "proved for the angle of the view and for the views kept; refuted: the direction and point of the source are replaced by 0 1 0 and the origin, the angle of an equisolid source is not read, reverse writes the header of an angular image, and hdr_ang2uv keeps the angular view",
 "C129": "refuted: the result is the same for all view directions; for 180 and 360 degrees useview changes nothing",
 "C130": "binary64 arithmetic, operation by operation, for every tree of additions with at most 2^40 of them; the products of einsum from left to right; monotone for rays whose computed cosine is not negative",
 "C131": "the death as one step that gives all futures that are not done the exception, as concurrent.futures does when it notices it",
 "C132": "proved for a normal return; refuted when a call raises: the executor is not shut down, so the later calls are started after pool_call has raised, and in the end all are made",
 "C133": "the argument as a second result; arrays of whole numbers truncate what is written into them (numpy casts on assignment)",
 "C134": "textwrap (wordsep_re, _wrap_chunks, _handle_long_word) is modelled with a number of steps; None means it has not come to an end. lines needs room behind the key; again needs words without inner hyphens that fit on a line, one blank between them, and no line that is the beginning of another; words needs only that the text is words with single blanks between them, and says that each line holds whole words unless a word is too long for a line",
 "C136": "full statement in exact arithmetic for two dimensional images, with scipy's filters modelled; the mean is refuted for a uniform window of an even number of values; the first eye movement is given pixel by pixel for a bright pixel",
 "C137": "the score with scipy's filters as modelled in M_Ndimage; the whole statement for windows of an odd number of pixels and without the point spread function. For a window of two pixels it is refuted at the point spread function itself, for every even window the place of the peak is",
 "C138": "full statement in exact arithmetic",
 "C139": "full statement in exact arithmetic with scipy's filters modelled, for whole factors that make every axis longer or every axis shorter; mixed factors are refuted in C64",
 "C140": "full statement for two processes that run one byte at a time in any order; false when pvalue prints more messages than the pipe for them holds, which is refuted: the call never returns",
 "C141": "full statement for arrays (x, y) and (3, x, y) for three processes that run one byte at a time in any order, pvalue being any program that reads the bytes it asks for; refuted for other numbers of channels (the call hangs, returns with an incomplete file or raises) and for programs that are killed (unreported, or the call hangs)",
 "C142": "full statement for binary64 arithmetic, with products that are rounded or fused with the addition",
 "C143": "falls from 0.0103 on; refuted for eccentricities from 0.009 to 0.0103, where the rise is bounded by 0.05 percent",
 "C145": "proved for scenes that get brighter as a whole; refuted for some brighter rays (a brighter background lowers dgp)"
}
