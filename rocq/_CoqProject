-Q theories Verif
theories/Base.v
theories/Clang.v
theories/Gen.v
theories/GenExpr.v
theories/GenBinary.v
theories/GenUnary.v
theories/GenStmt.v
theories/GenTest.v
theories/PreludeText.v
theories/Rewriter.v
theories/MutTree.v
theories/Mutation.v
theories/Run.v
theories/TreeSpec.v
theories/MutTreeProof.v
theories/RunSpec.v
theories/RunProof.v
theories/RunProof2.v
theories/RewriterProof.v
theories/RunTest.v
theories/PropsRun.v
theories/GenSpec.v
theories/GenProof.v
theories/PropsGen.v
theories/Prelude.v
theories/PreludeSpec.v
theories/PreludeProof.v
theories/PreludeProof2.v
theories/PreludeC.v
theories/PreludeCProof.v
theories/ValueProof.v
theories/PropsPrelude.v
theories/PropsValue.v
theories/Tracking.v
theories/TrackingSpec.v
theories/TrackingProof.v
theories/PropsTracking.v
theories/SourceRange.v
theories/QueryText.v
theories/SourceRangeSpec.v
theories/SourceRangeProof.v
theories/Utf8Proof.v
theories/Query.v
theories/QuerySpec.v
theories/QueryProof.v
theories/PropsSource.v
theories/Diagnostics.v
theories/DiagnosticsSpec.v
theories/DiagnosticsProof.v
theories/PropsDiagnostics.v
theories/ConstRewrite.v
theories/ConstSpec.v
theories/ConstProof.v
theories/PropsConst.v
theories/SubsumeSpec.v
theories/SubsumeProof.v
theories/PropsSubsume.v
theories/Sites.v
theories/ArithSpec.v
theories/ArithProof.v
theories/PropsArith.v
theories/Lang.v
theories/Cst.v
theories/SimSpec.v
theories/SimRel.v
theories/SimProof.v
theories/SimMutate.v
theories/Runtime.v
theories/SimTop.v
theories/SimProgress.v
theories/LangRun.v
theories/MutantSpec.v
theories/MutantProof.v
theories/SimExample.v
theories/SimLogic.v
theories/SimRefute.v
theories/PropsSem.v
theories/NestSpec.v
theories/NestProof.v
theories/NestProof2.v
theories/FuseProof.v
theories/NestStmt.v
theories/RewriteBuffer.v
theories/RewriteBufferSpec.v
theories/RewriteBufferProof.v
theories/NestBuffer.v
theories/PropsNest.v
theories/ClashSpec.v
theories/ClashProof.v
theories/PropsClash.v
theories/Visitor.v
theories/VisitorSpec.v
theories/VisitorProof.v
theories/VisitorExample.v
theories/PropsVisitor.v
theories/TypeSpec.v
theories/TypeProof.v
theories/PropsType.v
theories/VisitorTree.v
theories/PropsOrder.v
theories/ExactSpec.v
theories/ExactProof.v
theories/PropsExact.v
theories/EndSpec.v
theories/EndProof.v
theories/PropsEnd.v
theories/Operator.v
theories/OperatorSpec.v
theories/OperatorProof.v
theories/OperatorExample.v
theories/PropsOperator.v
theories/Macro.v
theories/MacroSpec.v
theories/MacroProof.v
theories/PropsMacro.v
theories/GrammarSpec.v
theories/GrammarProof.v
theories/GrammarExample.v
theories/PropsGrammar.v
theories/CatalogueSpec.v
theories/CatalogueProof.v
theories/PropsCatalogue.v
theories/MovedSpec.v
theories/MovedProof.v
theories/MovedExample.v
theories/PropsMoved.v
theories/NodeTypes.v
theories/NodeTypesSpec.v
theories/NodeTypesProof.v
theories/PropsNodeTypes.v
theories/Jump.v
theories/JumpSpec.v
theories/JumpProof.v
theories/JumpExample.v
theories/PropsJump.v
theories/StmtEnd.v
theories/StmtEndSpec.v
theories/StmtEndProof.v
theories/PropsStmtEnd.v
theories/OmitSpec.v
theories/OmitProof.v
theories/PropsOmit.v
theories/FloatSpec.v
theories/FloatProof.v
theories/PropsFloat.v
theories/CText.v
theories/CRun.v
theories/CTextProof.v
theories/CRunProof.v
theories/TextSpec.v
theories/CRunTop.v
theories/CRunC.v
theories/CRunTrack.v
theories/TextProof.v
theories/PropsText.v
theories/FunText.v
theories/FunSpec.v
theories/FunProof.v
theories/FunProof2.v
theories/FunProof3.v
theories/FunTop.v
theories/FunAccepted.v
theories/PropsFun.v
theories/NameSpec.v
theories/NameProof.v
theories/NameProof2.v
theories/NameTop.v
theories/PropsName.v
theories/TextLang.v
theories/TextLangProof.v
theories/TextLangProof2.v
theories/TextLangProof3.v
theories/TextTop.v
theories/PropsWhole.v
theories/LineSpec.v
theories/LineProof.v
theories/LineTop.v
theories/PropsLine.v
theories/HeaderSpec.v
theories/HeaderProof.v
theories/HeaderRun.v
theories/HeaderTop.v
theories/PropsHeader.v
theories/InfoJson.v
theories/InfoScript.v
theories/InfoSpec.v
theories/InfoRead.v
theories/InfoProof.v
theories/InfoLines.v
theories/PropsInfo.v
theories/QuietSpec.v
theories/QuietProof.v
theories/QuietTop.v
theories/QuietExample.v
theories/PropsQuiet.v
theories/ShownSpec.v
theories/ShownProof.v
theories/ShownTop.v
theories/ShownExample.v
theories/PropsShown.v
theories/CoverSpec.v
theories/CoverProof.v
theories/CoverTop.v
theories/CoverExample.v
theories/PropsCover.v
theories/PathText.v
theories/PathSpec.v
theories/PathProof.v
theories/PathTop.v
theories/PathExample.v
theories/PropsPath.v
theories/Linked.v
theories/LinkedSpec.v
theories/LinkedProof.v
theories/LinkedExample.v
theories/PropsLinked.v
theories/LinkedCoverSpec.v
theories/LinkedCoverProof.v
theories/LinkedCoverExample.v
theories/PropsLinkedCover.v
theories/Threads.v
theories/ThreadsSpec.v
theories/ThreadsProof.v
theories/ThreadsExample.v
theories/PropsThreads.v
theories/ThreadsCoverSpec.v
theories/ThreadsCoverProof.v
theories/ThreadsCoverExample.v
theories/PropsThreadsCover.v
theories/TextCoverSpec.v
theories/TextCoverProof.v
theories/TextCoverExample.v
theories/PropsTextCover.v
theories/Disk.v
theories/DiskSpec.v
theories/DiskProof.v
theories/DiskExample.v
theories/PropsDisk.v
theories/DeclTypes.v
theories/DeclTypesSpec.v
theories/DeclTypesProof.v
theories/DeclTypesExample.v
theories/PropsDeclTypes.v
theories/RespellSpec.v
theories/RespellProof.v
theories/RespellTop.v
theories/RespellExample.v
theories/PropsRespell.v
theories/RespellCover.v
theories/PropsRespellCover.v
theories/JumpCover.v
theories/JumpCoverSpec.v
theories/JumpCoverProof.v
theories/JumpCoverExample.v
theories/PropsJumpCover.v
theories/InfoFile.v
theories/InfoFileProof.v
theories/InfoFileExample.v
theories/PropsInfoFile.v
theories/TwiceSpec.v
theories/TwiceProof.v
theories/TwiceExample.v
theories/PropsTwice.v
