(* The conversions between the COLLADA enumerations and their strings:
   FCollada/FUtils/FUDaeEnum.h, FUDaeEnum.cpp, FUDaeEnumSyntax.h, FUDaeSyntax.h.

   Each namespace of FUDaeEnum.cpp holds one FromString, an if/else chain of
   strcmp tests, and (but for FUDaeTextureChannel) one ToString, a switch.  An
   enumerator is its integer value.  A C string is a Coq [string] (no NUL inside,
   never a null pointer).  The macros are replaced by their text. *)
From Coq Require Import String List ZArith.
Import ListNotations.
Open Scope string_scope.
Open Scope Z_scope.

(* One namespace of FUDaeEnum.h / FUDaeEnum.cpp. *)
Record family := {
  named : list (string * Z);      (* the enum of FUDaeEnum.h, in order *)
  chain : list (string * Z);      (* the if/else chain of FromString, in order *)
  otherwise : Z;                  (* its last "else return" *)
  cases : list (Z * string);      (* the switch of ToString, in order *)
  fallback : string               (* its "default: return" *)
}.

(* FUDaeEnum.cpp, every FromString (e.g. 30-40, 119-128): an if/else chain of
   IsEquivalent (FUString.h 536-539, strcmp == 0) or operator== tests. *)
Fixpoint run_chain (l : list (string * Z)) (d : Z) (s : string) : Z :=
  match l with
  | [] => d
  | (k, v) :: r => if String.eqb s k then v else run_chain r d s
  end.

Definition FromString (f : family) (s : string) : Z :=
  run_chain (chain f) (otherwise f) s.

(* FUDaeEnum.cpp, every ToString (e.g. 42-53, 130-141): a switch over the value. *)
Fixpoint run_switch (l : list (Z * string)) (d : string) (v : Z) : string :=
  match l with
  | [] => d
  | (k, s) :: r => if Z.eqb v k then s else run_switch r d v
  end.

Definition ToString (f : family) (v : Z) : string :=
  run_switch (cases f) (fallback f) v.

(* namespace FUDaeInterpolation: FUDaeEnum.h 29-40; FUDaeEnum.cpp FromString 30-39, ToString 41-52. *)
Definition FUDaeInterpolation : family := {|
  named := [
    ("STEP", 0); ("LINEAR", 1); ("BEZIER", 2); ("TCB", 3); ("UNKNOWN", 4);
    ("DEFAULT", 0)];
  chain := [
    ("STEP", 0); ("LINEAR", 1); ("BEZIER", 2); ("TCB", 3); ("", 2)];
  otherwise := 4;
  cases := [
    (0, "STEP"); (1, "LINEAR"); (2, "BEZIER"); (3, "TCB")];
  fallback := "unknown" |}.

(* namespace FUDaeSplineType: FUDaeEnum.h 60-68; FUDaeEnum.cpp FromString 57-63, ToString 65-74. *)
Definition FUDaeSplineType : family := {|
  named := [
    ("LINEAR", 0); ("BEZIER", 1); ("NURBS", 2); ("UNKNOWN", 3); ("DEFAULT", 2)];
  chain := [
    ("LINEAR", 0); ("BEZIER", 1); ("NURBS", 2)];
  otherwise := 3;
  cases := [
    (0, "LINEAR"); (1, "BEZIER"); (2, "NURBS")];
  fallback := "UNKNOWN" |}.

(* namespace FUDaeSplineForm: FUDaeEnum.h 85-93; FUDaeEnum.cpp FromString 79-84, ToString 86-94. *)
Definition FUDaeSplineForm : family := {|
  named := [
    ("OPEN", 0); ("CLOSED", 1); ("UNKNOWN", 2); ("DEFAULT", 0)];
  chain := [
    ("OPEN", 0); ("CLOSED", 1)];
  otherwise := 2;
  cases := [
    (0, "OPEN"); (1, "CLOSED")];
  fallback := "UNKNOWN" |}.

(* namespace FUDaeTextureChannel: FUDaeEnum.h 114-132; FUDaeEnum.cpp FromString 100-116; no ToString exists. *)
Definition FUDaeTextureChannel : family := {|
  named := [
    ("AMBIENT", 0); ("BUMP", 1); ("DIFFUSE", 2); ("DISPLACEMENT", 3);
    ("EMISSION", 4); ("FILTER", 5); ("REFLECTION", 6); ("REFRACTION", 7);
    ("SHININESS", 8); ("SPECULAR", 9); ("SPECULAR_LEVEL", 10); ("TRANSPARENT", 11);
    ("COUNT", 12); ("UNKNOWN", 13); ("DEFAULT", 2)];
  chain := [
    ("AMBIENT", 0); ("BUMP", 1); ("DIFFUSE", 2); ("DISPLACEMENT", 3); ("GLOW", 4);
    ("FILTER", 5); ("REFLECTION", 6); ("REFRACTION", 7); ("SHININESS", 8);
    ("SPECULAR", 9); ("SPECULAR-LEVEL", 10); ("TRANSPARENT", 11)];
  otherwise := 13;
  cases := [];
  fallback := "" |}.

(* namespace FUDaeTextureWrapMode: FUDaeEnum.h 143-153; FUDaeEnum.cpp FromString 121-129, ToString 131-142. *)
Definition FUDaeTextureWrapMode : family := {|
  named := [
    ("NONE", 0); ("WRAP", 1); ("MIRROR", 2); ("CLAMP", 3); ("BORDER", 4);
    ("UNKNOWN", 5); ("DEFAULT", 1)];
  chain := [
    ("NONE", 0); ("WRAP", 1); ("MIRROR", 2); ("CLAMP", 3); ("BORDER", 4)];
  otherwise := 5;
  cases := [
    (0, "NONE"); (1, "WRAP"); (2, "MIRROR"); (3, "CLAMP"); (4, "BORDER")];
  fallback := "UNKNOWN" |}.

(* namespace FUDaeTextureFilterFunction: FUDaeEnum.h 170-182; FUDaeEnum.cpp FromString 148-158, ToString 160-172. *)
Definition FUDaeTextureFilterFunction : family := {|
  named := [
    ("NONE", 0); ("NEAREST", 1); ("LINEAR", 2); ("NEAREST_MIPMAP_NEAREST", 3);
    ("LINEAR_MIPMAP_NEAREST", 4); ("NEAREST_MIPMAP_LINEAR", 5);
    ("LINEAR_MIPMAP_LINEAR", 6); ("UNKNOWN", 7); ("DEFAULT", 0)];
  chain := [
    ("NONE", 0); ("NEAREST", 1); ("LINEAR", 2); ("NEAREST_MIPMAP_NEAREST", 3);
    ("LINEAR_MIPMAP_NEAREST", 4); ("NEAREST_MIPMAP_LINEAR", 5);
    ("LINEAR_MIPMAP_LINEAR", 6)];
  otherwise := 7;
  cases := [
    (0, "NONE"); (1, "NEAREST"); (3, "NEAREST_MIPMAP_NEAREST");
    (4, "LINEAR_MIPMAP_NEAREST"); (5, "NEAREST_MIPMAP_LINEAR");
    (6, "LINEAR_MIPMAP_LINEAR")];
  fallback := "UNKNOWN" |}.

(* namespace FUDaeMorphMethod: FUDaeEnum.h 205-212; FUDaeEnum.cpp FromString 177-182, ToString 184-193. *)
Definition FUDaeMorphMethod : family := {|
  named := [
    ("NORMALIZED", 0); ("RELATIVE", 1); ("UNKNOWN", 2); ("DEFAULT", 0)];
  chain := [
    ("NORMALIZED", 0); ("RELATIVE", 1)];
  otherwise := 0;
  cases := [
    (0, "NORMALIZED"); (1, "RELATIVE")];
  fallback := "UNKNOWN" |}.

(* namespace FUDaeInfinity: FUDaeEnum.h 231-249; FUDaeEnum.cpp FromString 198-206, ToString 208-219. *)
Definition FUDaeInfinity : family := {|
  named := [
    ("CONSTANT", 0); ("LINEAR", 1); ("CYCLE", 2); ("CYCLE_RELATIVE", 3);
    ("OSCILLATE", 4); ("UNKNOWN", 5); ("DEFAULT", 0)];
  chain := [
    ("CONSTANT", 0); ("LINEAR", 1); ("CYCLE", 2); ("CYCLE_RELATIVE", 3);
    ("OSCILLATE", 4)];
  otherwise := 0;
  cases := [
    (0, "CONSTANT"); (1, "LINEAR"); (2, "CYCLE"); (3, "CYCLE_RELATIVE");
    (4, "OSCILLATE")];
  fallback := "CONSTANT" |}.

(* namespace FUDaeBlendMode: FUDaeEnum.h 267-285; FUDaeEnum.cpp FromString 224-240, ToString 242-261. *)
Definition FUDaeBlendMode : family := {|
  named := [
    ("NONE", 0); ("OVER", 1); ("IN", 2); ("OUT", 3); ("ADD", 4); ("SUBTRACT", 5);
    ("MULTIPLY", 6); ("DIFFERENCE", 7); ("LIGHTEN", 8); ("DARKEN", 9);
    ("SATURATE", 10); ("DESATURATE", 11); ("ILLUMINATE", 12); ("UNKNOWN", 13);
    ("DEFAULT", 0)];
  chain := [
    ("NONE", 0); ("OVER", 1); ("IN", 2); ("OUT", 3); ("ADD", 4); ("SUBTRACT", 5);
    ("MULTIPLY", 6); ("DIFFERENCE", 7); ("LIGHTEN", 8); ("DARKEN", 9);
    ("SATURATE", 10); ("DESATURATE", 11); ("ILLUMINATE", 12)];
  otherwise := 13;
  cases := [
    (0, "NONE"); (1, "OVER"); (2, "IN"); (3, "OUT"); (4, "ADD"); (5, "SUBTRACT");
    (6, "MULTIPLY"); (7, "DIFFERENCE"); (8, "LIGHTEN"); (9, "DARKEN");
    (10, "SATURATE"); (11, "DESATURATE"); (12, "ILLUMINATE")];
  fallback := "NONE" |}.

(* namespace FUDaeGeometryInput: FUDaeEnum.h 303-322; FUDaeEnum.cpp FromString 266-282, ToString 284-305. *)
Definition FUDaeGeometryInput : family := {|
  named := [
    ("POSITION", 0); ("VERTEX", 1); ("NORMAL", 2); ("GEOTANGENT", 3);
    ("GEOBINORMAL", 4); ("TEXCOORD", 5); ("TEXTANGENT", 6); ("TEXBINORMAL", 7);
    ("UV", 8); ("COLOR", 9); ("EXTRA", 10); ("POINT_SIZE", 11);
    ("POINT_ROTATION", 12); ("UNKNOWN", -1)];
  chain := [
    ("POSITION", 0); ("VERTEX", 1); ("NORMAL", 2); ("TANGENT", 3); ("BINORMAL", 4);
    ("TEXCOORD", 5); ("TEXTANGENT", 6); ("TEXBINORMAL", 7); ("UV", 8);
    ("COLOR", 9); ("POINT_SIZE", 11); ("POINT_ROT", 12); ("EXTRA", 10)];
  otherwise := -1;
  cases := [
    (0, "POSITION"); (1, "VERTEX"); (2, "NORMAL"); (3, "TANGENT"); (4, "BINORMAL");
    (5, "TEXCOORD"); (6, "TEXTANGENT"); (7, "TEXBINORMAL"); (8, "UV");
    (9, "COLOR"); (11, "POINT_SIZE"); (12, "POINT_ROT"); (10, "EXTRA")];
  fallback := "UNKNOWN" |}.

(* namespace FUDaeProfileType: FUDaeEnum.h 341-350; FUDaeEnum.cpp FromString 310-318, ToString 320-333. *)
Definition FUDaeProfileType : family := {|
  named := [
    ("CG", 0); ("HLSL", 1); ("GLSL", 2); ("GLES", 3); ("COMMON", 4);
    ("UNKNOWN", 5)];
  chain := [
    ("profile_COMMON", 4); ("profile_CG", 0); ("profile_HLSL", 1);
    ("profile_GLSL", 2); ("profile_GLES", 3)];
  otherwise := 5;
  cases := [
    (4, "profile_COMMON"); (0, "profile_CG"); (1, "profile_HLSL");
    (2, "profile_GLSL"); (3, "profile_GLES")];
  fallback := "UNKNOWN" |}.

(* namespace FUDaePassStateFunction: FUDaeEnum.h 374-386; FUDaeEnum.cpp FromString 338-349, ToString 351-366. *)
Definition FUDaePassStateFunction : family := {|
  named := [
    ("NEVER", 512); ("LESS", 513); ("EQUAL", 514); ("LESS_EQUAL", 515);
    ("GREATER", 516); ("NOT_EQUAL", 517); ("GREATER_EQUAL", 518); ("ALWAYS", 519);
    ("INVALID", 520)];
  chain := [
    ("NEVER", 512); ("LESS", 513); ("EQUAL", 514); ("LEQUAL", 515);
    ("GREATER", 516); ("NOTEQUAL", 517); ("GEQUAL", 518); ("ALWAYS", 519)];
  otherwise := 520;
  cases := [
    (512, "NEVER"); (513, "LESS"); (514, "EQUAL"); (515, "LEQUAL");
    (516, "GREATER"); (517, "NOTEQUAL"); (518, "GEQUAL"); (519, "ALWAYS")];
  fallback := "UNKNOWN" |}.

(* namespace FUDaePassStateStencilOperation: FUDaeEnum.h 404-417; FUDaeEnum.cpp FromString 371-382, ToString 384-399. *)
Definition FUDaePassStateStencilOperation : family := {|
  named := [
    ("KEEP", 7680); ("ZERO", 0); ("REPLACE", 7681); ("INCREMENT", 7682);
    ("DECREMENT", 7683); ("INVERT", 7690); ("INCREMENT_WRAP", 34055);
    ("DECREMENT_WRAP", 34056); ("INVALID", 34057)];
  chain := [
    ("KEEP", 7680); ("ZERO", 0); ("REPLACE", 7681); ("INCR", 7682); ("DECR", 7683);
    ("INVERT", 7690); ("INCR_WRAP", 34055); ("DECR_WRAP", 34056)];
  otherwise := 34057;
  cases := [
    (7680, "KEEP"); (0, "ZERO"); (7681, "REPLACE"); (7682, "INCR"); (7683, "DECR");
    (7690, "INVERT"); (34055, "INCR_WRAP"); (34056, "DECR_WRAP")];
  fallback := "UNKNOWN" |}.

(* namespace FUDaePassStateBlendType: FUDaeEnum.h 441-460; FUDaeEnum.cpp FromString 404-422, ToString 424-446. *)
Definition FUDaePassStateBlendType : family := {|
  named := [
    ("ZERO", 0); ("ONE", 1); ("SOURCE_COLOR", 768);
    ("ONE_MINUS_SOURCE_COLOR", 769); ("DESTINATION_COLOR", 774);
    ("ONE_MINUS_DESTINATION_COLOR", 775); ("SOURCE_ALPHA", 770);
    ("ONE_MINUS_SOURCE_ALPHA", 771); ("DESTINATION_ALPHA", 772);
    ("ONE_MINUS_DESTINATION_ALPHA", 773); ("CONSTANT_COLOR", 32769);
    ("ONE_MINUS_CONSTANT_COLOR", 32770); ("CONSTANT_ALPHA", 32771);
    ("ONE_MINUS_CONSTANT_ALPHA", 32772); ("SOURCE_ALPHA_SATURATE", 776);
    ("INVALID", 777)];
  chain := [
    ("ZERO", 0); ("ONE", 1); ("SRC_COLOR", 768); ("ONE_MINUS_SRC_COLOR", 769);
    ("DEST_COLOR", 774); ("ONE_MINUS_DEST_COLOR", 775); ("SRC_ALPHA", 770);
    ("ONE_MINUS_SRC_ALPHA", 771); ("DEST_ALPHA", 772);
    ("ONE_MINUS_DEST_ALPHA", 773); ("CONSTANT_COLOR", 32769);
    ("ONE_MINUS_CONSTANT_COLOR", 32770); ("CONSTANT_ALPHA", 32771);
    ("ONE_MINUS_CONSTANT_ALPHA", 32772); ("SRC_ALPHA_SATURATE", 776)];
  otherwise := 777;
  cases := [
    (0, "ZERO"); (1, "ONE"); (768, "SRC_COLOR"); (769, "ONE_MINUS_SRC_COLOR");
    (774, "DEST_COLOR"); (775, "ONE_MINUS_DEST_COLOR"); (770, "SRC_ALPHA");
    (771, "ONE_MINUS_SRC_ALPHA"); (772, "DEST_ALPHA");
    (773, "ONE_MINUS_DEST_ALPHA"); (32769, "CONSTANT_COLOR");
    (32770, "ONE_MINUS_CONSTANT_COLOR"); (32771, "CONSTANT_ALPHA");
    (32772, "ONE_MINUS_CONSTANT_ALPHA"); (776, "SRC_ALPHA_SATURATE")];
  fallback := "UNKNOWN" |}.

(* namespace FUDaePassStateFaceType: FUDaeEnum.h 480-487; FUDaeEnum.cpp FromString 452-458, ToString 460-470. *)
Definition FUDaePassStateFaceType : family := {|
  named := [
    ("FRONT", 1028); ("BACK", 1029); ("FRONT_AND_BACK", 1032); ("INVALID", 1033)];
  chain := [
    ("FRONT", 1028); ("BACK", 1029); ("FRONT_AND_BACK", 1032)];
  otherwise := 1033;
  cases := [
    (1028, "FRONT"); (1029, "BACK"); (1032, "FRONT_AND_BACK")];
  fallback := "UNKNOWN" |}.

(* namespace FUDaePassStateBlendEquation: FUDaeEnum.h 505-514; FUDaeEnum.cpp FromString 475-483, ToString 485-497. *)
Definition FUDaePassStateBlendEquation : family := {|
  named := [
    ("ADD", 32774); ("SUBTRACT", 32778); ("REVERSE_SUBTRACT", 32779);
    ("MIN", 32775); ("MAX", 32776); ("INVALID", 32777)];
  chain := [
    ("FUNC_ADD", 32774); ("FUNC_SUBTRACT", 32778);
    ("FUNC_REVERSE_SUBTRACT", 32779); ("MIN", 32775); ("MAX", 32776)];
  otherwise := 32777;
  cases := [
    (32774, "FUNC_ADD"); (32778, "FUNC_SUBTRACT");
    (32779, "FUNC_REVERSE_SUBTRACT"); (32775, "MIN"); (32776, "MAX")];
  fallback := "UNKNOWN" |}.

(* namespace FUDaePassStateMaterialType: FUDaeEnum.h 532-541; FUDaeEnum.cpp FromString 502-510, ToString 512-524. *)
Definition FUDaePassStateMaterialType : family := {|
  named := [
    ("EMISSION", 5632); ("AMBIENT", 4608); ("DIFFUSE", 4609); ("SPECULAR", 4610);
    ("AMBIENT_AND_DIFFUSE", 5634); ("INVALID", 5635)];
  chain := [
    ("EMISSION", 5632); ("AMBIENT", 4608); ("DIFFUSE", 4609); ("SPECULAR", 4610);
    ("AMBIENT_AND_DIFFUSE", 5634)];
  otherwise := 5635;
  cases := [
    (5632, "EMISSION"); (4608, "AMBIENT"); (4609, "DIFFUSE"); (4610, "SPECULAR");
    (5634, "AMBIENT_AND_DIFFUSE")];
  fallback := "UNKNOWN" |}.

(* namespace FUDaePassStateFogType: FUDaeEnum.h 559-566; FUDaeEnum.cpp FromString 529-535, ToString 537-547. *)
Definition FUDaePassStateFogType : family := {|
  named := [
    ("LINEAR", 9729); ("EXP", 2048); ("EXP2", 2049); ("INVALID", 2050)];
  chain := [
    ("LINEAR", 9729); ("EXP", 2048); ("EXP2", 2049)];
  otherwise := 2050;
  cases := [
    (9729, "LINEAR"); (2048, "EXP"); (2049, "EXP2")];
  fallback := "UNKNOWN" |}.

(* namespace FUDaePassStateFogCoordinateType: FUDaeEnum.h 584-590; FUDaeEnum.cpp FromString 552-557, ToString 559-568. *)
Definition FUDaePassStateFogCoordinateType : family := {|
  named := [
    ("FOG_COORDINATE", 33873); ("FRAGMENT_DEPTH", 33874); ("INVALID", 33875)];
  chain := [
    ("FOG_COORDINATE", 33873); ("FRAGMENT_DEPTH", 33874)];
  otherwise := 33875;
  cases := [
    (33873, "FOG_COORDINATE"); (33874, "FRAGMENT_DEPTH")];
  fallback := "UNKNOWN" |}.

(* namespace FUDaePassStateFrontFaceType: FUDaeEnum.h 608-614; FUDaeEnum.cpp FromString 573-578, ToString 580-589. *)
Definition FUDaePassStateFrontFaceType : family := {|
  named := [
    ("CLOCKWISE", 2304); ("COUNTER_CLOCKWISE", 2305); ("INVALID", 2306)];
  chain := [
    ("CW", 2304); ("CCW", 2305)];
  otherwise := 2306;
  cases := [
    (2304, "CW"); (2305, "CCW")];
  fallback := "UNKNOWN" |}.

(* namespace FUDaePassStateLogicOperation: FUDaeEnum.h 633-652; FUDaeEnum.cpp FromString 596-614, ToString 616-638. *)
Definition FUDaePassStateLogicOperation : family := {|
  named := [
    ("CLEAR", 5376); ("AND", 5377); ("AND_REVERSE", 5378); ("COPY", 5379);
    ("AND_INVERTED", 5380); ("NOOP", 5381); ("XOR", 5382); ("OR", 5383);
    ("NOR", 5384); ("EQUIV", 5385); ("INVERT", 5386); ("OR_REVERSE", 5387);
    ("COPY_INVERTED", 5388); ("NAND", 5390); ("SET", 5391); ("INVALID", 5392)];
  chain := [
    ("CLEAR", 5376); ("AND", 5377); ("AND_REVERSE", 5378); ("COPY", 5379);
    ("AND_INVERTED", 5380); ("NOOP", 5381); ("XOR", 5382); ("OR", 5383);
    ("NOR", 5384); ("EQUIV", 5385); ("INVERT", 5386); ("OR_REVERSE", 5387);
    ("COPY_INVERTED", 5388); ("NAND", 5390); ("SET", 5391)];
  otherwise := 5392;
  cases := [
    (5376, "CLEAR"); (5377, "AND"); (5378, "AND_REVERSE"); (5379, "COPY");
    (5380, "AND_INVERTED"); (5381, "NOOP"); (5382, "XOR"); (5383, "OR");
    (5384, "NOR"); (5385, "EQUIV"); (5386, "INVERT"); (5387, "OR_REVERSE");
    (5388, "COPY_INVERTED"); (5390, "NAND"); (5391, "SET")];
  fallback := "UNKNOWN" |}.

(* namespace FUDaePassStatePolygonMode: FUDaeEnum.h 670-677; FUDaeEnum.cpp FromString 644-650, ToString 652-662. *)
Definition FUDaePassStatePolygonMode : family := {|
  named := [
    ("POINT", 6912); ("LINE", 6913); ("FILL", 6914); ("INVALID", 6915)];
  chain := [
    ("POINT", 6912); ("LINE", 6913); ("FILL", 6914)];
  otherwise := 6915;
  cases := [
    (6912, "POINT"); (6913, "LINE"); (6914, "FILL")];
  fallback := "UNKNOWN" |}.

(* namespace FUDaePassStateShadeModel: FUDaeEnum.h 695-701; FUDaeEnum.cpp FromString 668-673, ToString 675-684. *)
Definition FUDaePassStateShadeModel : family := {|
  named := [
    ("FLAT", 7424); ("SMOOTH", 7425); ("INVALID", 7426)];
  chain := [
    ("FLAT", 7424); ("SMOOTH", 7425)];
  otherwise := 7426;
  cases := [
    (7424, "FLAT"); (7425, "SMOOTH")];
  fallback := "UNKNOWN" |}.

(* namespace FUDaePassStateLightModelColorControlType: FUDaeEnum.h 719-725; FUDaeEnum.cpp FromString 689-694, ToString 696-705. *)
Definition FUDaePassStateLightModelColorControlType : family := {|
  named := [
    ("SINGLE_COLOR", 33273); ("SEPARATE_SPECULAR_COLOR", 33274);
    ("INVALID", 33275)];
  chain := [
    ("SINGLE_COLOR", 33273); ("SEPARATE_SPECULAR_COLOR", 33274)];
  otherwise := 33275;
  cases := [
    (33273, "SINGLE_COLOR"); (33274, "SEPARATE_SPECULAR_COLOR")];
  fallback := "UNKNOWN" |}.

(* namespace FUDaePassState: FUDaeEnum.h 749-872; FUDaeEnum.cpp FromString 710-821, ToString 823-938. *)
Definition FUDaePassState : family := {|
  named := [
    ("ALPHA_FUNC", 0); ("BLEND_FUNC", 1); ("BLEND_FUNC_SEPARATE", 2);
    ("BLEND_EQUATION", 3); ("BLEND_EQUATION_SEPARATE", 4); ("COLOR_MATERIAL", 5);
    ("CULL_FACE", 6); ("DEPTH_FUNC", 7); ("FOG_MODE", 8); ("FOG_COORD_SRC", 9);
    ("FRONT_FACE", 10); ("LIGHT_MODEL_COLOR_CONTROL", 11); ("LOGIC_OP", 12);
    ("POLYGON_MODE", 13); ("SHADE_MODEL", 14); ("STENCIL_FUNC", 15);
    ("STENCIL_OP", 16); ("STENCIL_FUNC_SEPARATE", 17); ("STENCIL_OP_SEPARATE", 18);
    ("STENCIL_MASK_SEPARATE", 19); ("LIGHT_ENABLE", 20); ("LIGHT_AMBIENT", 21);
    ("LIGHT_DIFFUSE", 22); ("LIGHT_SPECULAR", 23); ("LIGHT_POSITION", 24);
    ("LIGHT_CONSTANT_ATTENUATION", 25); ("LIGHT_LINEAR_ATTENUATION", 26);
    ("LIGHT_QUADRATIC_ATTENUATION", 27); ("LIGHT_SPOT_CUTOFF", 28);
    ("LIGHT_SPOT_DIRECTION", 29); ("LIGHT_SPOT_EXPONENT", 30); ("TEXTURE1D", 31);
    ("TEXTURE2D", 32); ("TEXTURE3D", 33); ("TEXTURECUBE", 34); ("TEXTURERECT", 35);
    ("TEXTUREDEPTH", 36); ("TEXTURE1D_ENABLE", 37); ("TEXTURE2D_ENABLE", 38);
    ("TEXTURE3D_ENABLE", 39); ("TEXTURECUBE_ENABLE", 40);
    ("TEXTURERECT_ENABLE", 41); ("TEXTUREDEPTH_ENABLE", 42);
    ("TEXTURE_ENV_COLOR", 43); ("TEXTURE_ENV_MODE", 44); ("CLIP_PLANE", 45);
    ("CLIP_PLANE_ENABLE", 46); ("BLEND_COLOR", 47); ("CLEAR_COLOR", 48);
    ("CLEAR_STENCIL", 49); ("CLEAR_DEPTH", 50); ("COLOR_MASK", 51);
    ("DEPTH_BOUNDS", 52); ("DEPTH_MASK", 53); ("DEPTH_RANGE", 54);
    ("FOG_DENSITY", 55); ("FOG_START", 56); ("FOG_END", 57); ("FOG_COLOR", 58);
    ("LIGHT_MODEL_AMBIENT", 59); ("LIGHTING_ENABLE", 60); ("LINE_STIPPLE", 61);
    ("LINE_WIDTH", 62); ("MATERIAL_AMBIENT", 63); ("MATERIAL_DIFFUSE", 64);
    ("MATERIAL_EMISSION", 65); ("MATERIAL_SHININESS", 66);
    ("MATERIAL_SPECULAR", 67); ("MODEL_VIEW_MATRIX", 68);
    ("POINT_DISTANCE_ATTENUATION", 69); ("POINT_FADE_THRESHOLD_SIZE", 70);
    ("POINT_SIZE", 71); ("POINT_SIZE_MIN", 72); ("POINT_SIZE_MAX", 73);
    ("POLYGON_OFFSET", 74); ("PROJECTION_MATRIX", 75); ("SCISSOR", 76);
    ("STENCIL_MASK", 77); ("ALPHA_TEST_ENABLE", 78); ("AUTO_NORMAL_ENABLE", 79);
    ("BLEND_ENABLE", 80); ("COLOR_LOGIC_OP_ENABLE", 81);
    ("COLOR_MATERIAL_ENABLE", 82); ("CULL_FACE_ENABLE", 83);
    ("DEPTH_BOUNDS_ENABLE", 84); ("DEPTH_CLAMP_ENABLE", 85);
    ("DEPTH_TEST_ENABLE", 86); ("DITHER_ENABLE", 87); ("FOG_ENABLE", 88);
    ("LIGHT_MODEL_LOCAL_VIEWER_ENABLE", 89); ("LIGHT_MODEL_TWO_SIDE_ENABLE", 90);
    ("LINE_SMOOTH_ENABLE", 91); ("LINE_STIPPLE_ENABLE", 92);
    ("LOGIC_OP_ENABLE", 93); ("MULTISAMPLE_ENABLE", 94); ("NORMALIZE_ENABLE", 95);
    ("POINT_SMOOTH_ENABLE", 96); ("POLYGON_OFFSET_FILL_ENABLE", 97);
    ("POLYGON_OFFSET_LINE_ENABLE", 98); ("POLYGON_OFFSET_POINT_ENABLE", 99);
    ("POLYGON_SMOOTH_ENABLE", 100); ("POLYGON_STIPPLE_ENABLE", 101);
    ("RESCALE_NORMAL_ENABLE", 102); ("SAMPLE_ALPHA_TO_COVERAGE_ENABLE", 103);
    ("SAMPLE_ALPHA_TO_ONE_ENABLE", 104); ("SAMPLE_COVERAGE_ENABLE", 105);
    ("SCISSOR_TEST_ENABLE", 106); ("STENCIL_TEST_ENABLE", 107); ("COUNT", 108);
    ("INVALID", 109)];
  chain := [
    ("alpha_func", 0); ("blend_func", 1); ("blend_func_separate", 2);
    ("blend_equation", 3); ("blend_equation_separate", 4); ("color_material", 5);
    ("cull_face", 6); ("depth_func", 7); ("fog_mode", 8); ("fog_coord_src", 9);
    ("front_face", 10); ("light_model_color_control", 11); ("logic_op", 12);
    ("polygon_mode", 13); ("shade_model", 14); ("stencil_func", 15);
    ("stencil_op", 16); ("stencil_func_separate", 17); ("stencil_op_separate", 18);
    ("stencil_mask_separate", 19); ("light_enable", 20); ("light_ambient", 21);
    ("light_diffuse", 22); ("light_specular", 23); ("light_position", 24);
    ("light_constant_attenuation", 25); ("light_linear_attenuation", 26);
    ("light_quadratic_attenuation", 27); ("light_spot_cutoff", 28);
    ("light_spot_direction", 29); ("light_spot_exponent", 30); ("texture1D", 31);
    ("texture2D", 32); ("texture3D", 33); ("textureCUBE", 34); ("textureRECT", 35);
    ("textureDEPTH", 36); ("texture1D_enable", 37); ("texture2D_enable", 38);
    ("texture3D_enable", 39); ("textureCUBE_enable", 40);
    ("textureRECT_enable", 41); ("textureDEPTH_enable", 42);
    ("texture_env_color", 43); ("texture_env_mode", 44); ("clip_plane", 45);
    ("clip_plane_enable", 46); ("blend_color", 47); ("clear_color", 48);
    ("clear_stencil", 49); ("clear_depth", 50); ("color_mask", 51);
    ("depth_bounds", 52); ("depth_mask", 53); ("depth_range", 54);
    ("fog_density", 55); ("fog_start", 56); ("fog_end", 57); ("fog_color", 58);
    ("light_model_ambient", 59); ("lighting_enable", 60); ("line_stipple", 61);
    ("line_width", 62); ("material_ambient", 63); ("material_diffuse", 64);
    ("material_emission", 65); ("material_shininess", 66);
    ("material_specular", 67); ("model_view_matrix", 68);
    ("point_distance_attenuation", 69); ("point_fade_threshold_size", 70);
    ("point_size", 71); ("point_size_min", 72); ("point_size_max", 73);
    ("polygon_offset", 74); ("projection_matrix", 75); ("scissor", 76);
    ("stencil_mask", 77); ("alpha_test_enable", 78); ("auto_normal_enable", 79);
    ("blend_enable", 80); ("color_logic_op_enable", 81);
    ("color_material_enable", 82); ("cull_face_enable", 83);
    ("depth_bounds_enable", 84); ("depth_clamp_enable", 85);
    ("depth_test_enable", 86); ("dither_enable", 87); ("fog_enable", 88);
    ("light_model_local_viewer_enable", 89); ("light_model_two_side_enable", 90);
    ("line_smooth_enable", 91); ("line_stipple_enable", 92);
    ("logic_op_enable", 93); ("multisample_enable", 94); ("normalize_enable", 95);
    ("point_smooth_enable", 96); ("polygon_offset_fill_enable", 97);
    ("polygon_offset_line_enable", 98); ("polygon_offset_point_enable", 99);
    ("polygon_smooth_enable", 100); ("polygon_stipple_enable", 101);
    ("rescale_normal_enable", 102); ("sample_alpha_to_coverage_enable", 103);
    ("sample_alpha_to_one_enable", 104); ("sample_coverage_enable", 105);
    ("scissor_test_enable", 106); ("stencil_test_enable", 107)];
  otherwise := 109;
  cases := [
    (0, "alpha_func"); (1, "blend_func"); (2, "blend_func_separate");
    (3, "blend_equation"); (4, "blend_equation_separate"); (5, "color_material");
    (6, "cull_face"); (7, "depth_func"); (8, "fog_mode"); (9, "fog_coord_src");
    (10, "front_face"); (11, "light_model_color_control"); (12, "logic_op");
    (13, "polygon_mode"); (14, "shade_model"); (15, "stencil_func");
    (16, "stencil_op"); (17, "stencil_func_separate"); (18, "stencil_op_separate");
    (19, "stencil_mask_separate"); (20, "light_enable"); (21, "light_ambient");
    (22, "light_diffuse"); (23, "light_specular"); (24, "light_position");
    (25, "light_constant_attenuation"); (26, "light_linear_attenuation");
    (27, "light_quadratic_attenuation"); (28, "light_spot_cutoff");
    (29, "light_spot_direction"); (30, "light_spot_exponent"); (31, "texture1D");
    (32, "texture2D"); (33, "texture3D"); (34, "textureCUBE"); (35, "textureRECT");
    (36, "textureDEPTH"); (37, "texture1D_enable"); (38, "texture2D_enable");
    (39, "texture3D_enable"); (40, "textureCUBE_enable");
    (41, "textureRECT_enable"); (42, "textureDEPTH_enable");
    (43, "texture_env_color"); (44, "texture_env_mode"); (45, "clip_plane");
    (46, "clip_plane_enable"); (47, "blend_color"); (48, "clear_color");
    (49, "clear_stencil"); (50, "clear_depth"); (51, "color_mask");
    (52, "depth_bounds"); (53, "depth_mask"); (54, "depth_range");
    (55, "fog_density"); (56, "fog_start"); (57, "fog_end"); (58, "fog_color");
    (59, "light_model_ambient"); (60, "lighting_enable"); (61, "line_stipple");
    (62, "line_width"); (63, "material_ambient"); (64, "material_diffuse");
    (65, "material_emission"); (66, "material_shininess");
    (67, "material_specular"); (68, "model_view_matrix");
    (69, "point_distance_attenuation"); (70, "point_fade_threshold_size");
    (71, "point_size"); (72, "point_size_min"); (73, "point_size_max");
    (74, "polygon_offset"); (75, "projection_matrix"); (76, "scissor");
    (77, "stencil_mask"); (78, "alpha_test_enable"); (79, "auto_normal_enable");
    (80, "blend_enable"); (81, "color_logic_op_enable");
    (82, "color_material_enable"); (83, "cull_face_enable");
    (84, "depth_bounds_enable"); (85, "depth_clamp_enable");
    (86, "depth_test_enable"); (87, "dither_enable"); (88, "fog_enable");
    (89, "light_model_local_viewer_enable"); (90, "light_model_two_side_enable");
    (91, "line_smooth_enable"); (92, "line_stipple_enable");
    (93, "logic_op_enable"); (94, "multisample_enable"); (95, "normalize_enable");
    (96, "point_smooth_enable"); (97, "polygon_offset_fill_enable");
    (98, "polygon_offset_line_enable"); (99, "polygon_offset_point_enable");
    (100, "polygon_smooth_enable"); (101, "polygon_stipple_enable");
    (102, "rescale_normal_enable"); (103, "sample_alpha_to_coverage_enable");
    (104, "sample_alpha_to_one_enable"); (105, "sample_coverage_enable");
    (106, "scissor_test_enable"); (107, "stencil_test_enable")];
  fallback := "unknown" |}.

(* The namespaces of FUDaeEnum.cpp that have both conversions, in order. *)
Definition families : list family := [
  FUDaeInterpolation;
  FUDaeSplineType;
  FUDaeSplineForm;
  FUDaeTextureWrapMode;
  FUDaeTextureFilterFunction;
  FUDaeMorphMethod;
  FUDaeInfinity;
  FUDaeBlendMode;
  FUDaeGeometryInput;
  FUDaeProfileType;
  FUDaePassStateFunction;
  FUDaePassStateStencilOperation;
  FUDaePassStateBlendType;
  FUDaePassStateFaceType;
  FUDaePassStateBlendEquation;
  FUDaePassStateMaterialType;
  FUDaePassStateFogType;
  FUDaePassStateFogCoordinateType;
  FUDaePassStateFrontFaceType;
  FUDaePassStateLogicOperation;
  FUDaePassStatePolygonMode;
  FUDaePassStateShadeModel;
  FUDaePassStateLightModelColorControlType;
  FUDaePassState].
