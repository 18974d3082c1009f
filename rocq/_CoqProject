-Q theories Verif
theories/Base.v
theories/Sha256.v
theories/Ty.v
theories/Ids.v
theories/Val.v
theories/SpecUtf8.v
theories/Utf8Proofs.v
theories/TypeSys.v
theories/Encode.v
theories/Decode.v
theories/DecodeShort.v
theories/Typify.v
theories/Spec.v
theories/CodecLemmas.v
theories/ValLemmas.v
theories/RoundTrip.v
theories/ReadLemmas.v
theories/WriteLemmas.v
theories/Sound.v
theories/CodecProofs.v
theories/ExampleSys.v
theories/PropCodec.v
theories/PropArrays.v
theories/SpecWire.v
theories/WireProofs.v
theories/WireUnique.v
theories/PropWire.v
theories/SpecTypify.v
theories/SpecByteNumber.v
theories/TypifyProofs.v
theories/TypifyExact.v
theories/TypifyProofs2.v
theories/TypifyProofs3.v
theories/TypifyNotations.v
theories/TypifyProofs4.v
theories/PropTypify.v
theories/SpecRecursive.v
theories/RecursiveProofs.v
theories/PropRecursive.v
theories/SpecSys.v
theories/TyProofs.v
theories/ExtractProofs.v
theories/PropSys.v
theories/SpecVal.v
theories/PropVal.v
theories/SpecIds.v
theories/IdProofs.v
theories/PropIds.v
theories/LibCodec.v
theories/SpecLib.v
theories/LibCodecProofs.v
theories/BTreeProofs.v
theories/LibCodecProofs2.v
theories/LibCodecProofs3.v
theories/Artifacts.v
theories/PropLib.v
theories/Build.v
theories/SpecBuild.v
theories/BuildProofs.v
theories/BuildProofs2.v
theories/ArtifactsBuild.v
theories/PropBuild.v
theories/SpecLimits.v
theories/PropLimits.v
theories/MapLemmas.v
theories/Compile.v
theories/SpecCompile.v
theories/CompileProofs.v
theories/CompileProofs2.v
theories/CompileProofs3.v
theories/PropCompile.v
theories/Layout.v
theories/SpecLayout.v
theories/LayoutProofs.v
theories/LayoutProofs2.v
theories/LayoutEnds.v
theories/LayoutShown.v
theories/PropLayout.v
theories/ArtifactsLayout.v
theories/Transpile.v
theories/SpecTranspile.v
theories/TranspileProofs.v
theories/TranspileProofs2.v
theories/TranspileProofs3.v
theories/PropTranspile.v
theories/Serde.v
theories/SpecSerde.v
theories/SerdeProofs.v
theories/PropSerde.v
theories/Ston.v
theories/SpecSton.v
theories/StonProofs.v
theories/PropSton.v
theories/Sty.v
theories/SpecSty.v
theories/StyProofs.v
theories/PropSty.v
theories/ArtifactsSty.v
theories/Text.v
theories/SpecText.v
theories/PropText.v
theories/Refs.v
theories/PropRefs.v
theories/Assemble.v
theories/SpecAssemble.v
theories/PropAssemble.v
theories/SpecSymbols.v
theories/PropSymbols.v
theories/SysText.v
theories/SpecSysText.v
theories/SysTextProofs.v
theories/PropSysText.v
theories/SpecRust.v
theories/RustProofs.v
theories/PropRust.v
theories/ByName.v
theories/SpecByName.v
theories/PropByName.v
theories/LibPrefix.v
theories/Files.v
theories/SpecFiles.v
theories/PropFiles.v
theories/PropSymbolic.v
theories/Macros.v
theories/SpecMacros.v
theories/MacrosProofs.v
theories/PropMacros.v
theories/StonMacro.v
theories/SpecStonMacro.v
theories/PropStonMacro.v
theories/PropBuildExact.v
