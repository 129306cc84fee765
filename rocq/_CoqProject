-Q theories Verif
theories/F64.v
theories/Kurbo.v
theories/Value.v
theories/Animated.v
theories/Batch.v
theories/Render.v
theories/RenderSpec.v
theories/RenderFacts.v
theories/RenderFacts2.v
theories/RenderFacts3.v
theories/Examples.v
theories/PropRender.v
theories/BatchSpec.v
theories/BatchFacts.v
theories/BatchRefine.v
theories/BatchFacts2.v
theories/PropBatch.v
theories/F64Facts.v
theories/ValueSpec.v
theories/ValueFacts.v
theories/ValueFacts2.v
theories/SplineFacts.v
theories/TrimFacts.v
theories/PropValue.v
theories/Schema.v
theories/Import.v
theories/ImportSpec.v
theories/ImportFacts.v
theories/ImportFacts2.v
theories/ImportFacts3.v
theories/ImportFacts4.v
theories/DocExamples.v
theories/PropImport.v
theories/DocAgree.v
theories/ImportFacts5.v
theories/TimelineSpec.v
theories/TimelineFacts.v
theories/PropImport2.v
theories/Serde.v
theories/SerdeSpec.v
theories/SerdeFacts.v
theories/SerdeFacts2.v
theories/SerdeFacts3.v
theories/PropSerde.v
theories/SerdeFacts4.v
theories/PropSerde2.v
theories/Styles.v
theories/PropStyles.v
theories/PropMembers.v
theories/PropJson.v
theories/PropGaps.v
theories/FrameSpec.v
theories/PropFrame.v
theories/PropDocument.v
theories/TrimSpec.v
theories/PropTrim.v
theories/Picking.v
theories/PickSpec.v
theories/PropPick.v
theories/Player.v
theories/PropPlayer.v
theories/Stats.v
theories/PropStats.v
theories/Viewer.v
theories/PropTouch.v
theories/PropViewer.v
theories/PropNav.v
theories/Download.v
theories/PropDownload.v
theories/GeometrySpec.v
theories/PropGeometry.v
theories/PropStar.v
theories/EasingSpec.v
theories/PropEasing.v
theories/FamilySpec.v
theories/PropFamily.v
theories/PropAlpha.v
theories/NestSpec.v
theories/NestFacts.v
theories/PropNest.v
theories/MorphSpec.v
theories/PropMorph.v
theories/PropFigures.v
theories/PropPinch.v
theories/Cursor.v
theories/PropCamera.v
theories/PropSwitch.v
theories/PropCursor.v
theories/Scenes.v
theories/PropScenes.v
theories/Text.v
theories/PropText.v
theories/PropDepth.v
theories/PropMerge.v
theories/PropLast.v
theories/PropCrash.v
theories/PropTrip.v
theories/PropBars.v
theories/PropHeld.v
theories/PropLabels.v
theories/PropFingers.v
theories/PropGrip.v
theories/PropRepeat.v
theories/PropNull.v
theories/PropVerge.v
theories/Store.v
theories/PropStore.v
theories/PropPoster.v
theories/LookSpec.v
theories/PropLook.v
theories/PropNest2.v
theories/PropTrimmed.v
theories/PropTrim2.v
theories/PropDownload2.v
theories/Panel.v
theories/PropPanel.v
theories/Session.v
theories/PropSession.v
theories/PropEase.v
theories/RepoTests.v
theories/FilmSpec.v
theories/PropFilm.v
theories/JsonText.v
theories/TextSpec.v
theories/TextFacts.v
theories/TextRead.v
theories/TextNum.v
theories/PropJsonText.v
theories/SerdeProper.v
theories/TextWrite.v
theories/PropWritten.v
theories/OrderSpec.v
theories/OrderFacts.v
theories/PropOrder.v
theories/AlikeSpec.v
theories/FileFacts.v
theories/FileFacts2.v
theories/PropFile.v
theories/PropSpan.v
theories/PropEdge.v
theories/PropEdges.v
theories/PropSplit.v
theories/PropLone.v
theories/Audit.v
