(** The SVG names that the HTML tree builder writes with their own letter case. *)
From Coq Require Import String List.
Import ListNotations.
Local Open Scope string_scope.

(** dom/defs/ns-svg-tag-names.inc:1-32 *)
Definition svg_tag_names : list string := [
  "__unknown__"; "circle"; "ellipse"; "g"; "line"; "path"; "polygon"; "polyline"; "rect"; "svg"; "text";
   "textPath"; "tspan"; "clipPath"; "defs"; "desc"; "foreignObject"; "linearGradient"; "mask";
   "radialGradient"; "script"; "stop"; "style"; "symbol"; "title"; "use"].

(** dom/defs/ns-svg-attr-names.inc:1-97 *)
Definition svg_attr_names : list string := [
  "__unknown__"; "attributeName"; "attributeType"; "baseFrequency"; "baseProfile"; "calcMode"; "class";
   "clipPathUnits"; "contentScriptType"; "contentStyleType"; "cx"; "cy"; "d"; "dx"; "dy"; "diffuseConstant";
   "edgeMode"; "fill"; "fill-opacity"; "filterUnits"; "fr"; "fx"; "fy"; "glyphRef"; "gradientTransform";
   "gradientUnits"; "height"; "href"; "id"; "kernelMatrix"; "kernelUnitLength"; "keyPoints"; "keySplines";
   "keyTimes"; "lengthAdjust"; "limitingConeAngle"; "markerHeight"; "markerUnits"; "markerWidth";
   "maskContentUnits"; "maskUnits"; "numOctaves"; "offset"; "opacity"; "pathLength"; "patternContentUnits";
   "patternTransform"; "patternUnits"; "points"; "pointsAtX"; "pointsAtY"; "pointsAtZ"; "preserveAlpha";
   "preserveAspectRatio"; "primitiveUnits"; "r"; "refX"; "refY"; "repeatCount"; "repeatDur";
   "requiredExtensions"; "requiredFeatures"; "rx"; "ry"; "specularConstant"; "specularExponent";
   "spreadMethod"; "startOffset"; "stdDeviation"; "stitchTiles"; "style"; "stroke"; "stroke-width";
   "surfaceScale"; "systemLanguage"; "tableValues"; "targetX"; "targetY"; "transform"; "transform-origin";
   "transform-box"; "textLength"; "version"; "viewBox"; "viewTarget"; "width"; "x"; "x1"; "x2";
   "xChannelSelector"; "xlink_href"; "y"; "y1"; "y2"; "yChannelSelector"; "zoomAndPan"].
